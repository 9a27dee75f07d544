(** C18 (save_mcmc), C44 (params objects, sampler objects and their arrays). *)
From Coq Require Import List ZArith Lia Bool Ascii String.
From Verif Require Import PyBase PyBaseFacts Sampler SamplerSpec SamplerDemo SamplerFacts SamplerMain Objects ObjSpec ObjProof.
Import ListNotations.
Open Scope Z_scope.
Notation length := List.length.
Notation append := String.append.

(** ** saving *)
Section Save.
Context {V D K P G I X B : Type}.
Notation pyval := (pyval V D K P X).
Notation heap := (heap V D K P X).
Variables (h5_open : string -> res unit) (h5_data : bool -> pyval -> res B) (h5_attr : pyval -> res B).

Definition ds_name (x : string * string * bool) : string := snd (fst x).
Definition ds_attr (x : string * string * bool) : string := fst (fst x).

Lemma put_dataset_err : forall (h : heap) m xs f e, fold_left (put_dataset h5_data h m) xs (f, Some e) = (f, Some e).
Proof. induction xs as [|x xs IH]; intros f e; [reflexivity|]. cbn [fold_left put_dataset]. apply IH. Qed.
Lemma put_attr_err : forall xs (f : h5file B) e, fold_left (put_attr h5_attr) xs (f, Some e) = (f, Some e).
Proof. induction xs as [|x xs IH]; intros f e; [reflexivity|]. cbn [fold_left put_attr]. apply IH. Qed.

Lemma put_datasets_spec : forall xs (h : heap) m e f f' err, hget h m = Some e -> NoDup (map ds_name xs) ->
  fold_left (put_dataset h5_data h m) xs (f, None) = (f', err) ->
  h5_attrs f' = h5_attrs f /\
  (forall n, ~ In n (map ds_name xs) -> dget (h5_datasets f') n = dget (h5_datasets f) n) /\
  (forall n b, dget (h5_datasets f') n = Some b -> dget (h5_datasets f) n = Some b \/
     exists a i1 v, In (a, n, i1) xs /\ dget e a = Some v /\ h5_data i1 v = Ok b) /\
  (err = None -> forall a n i1, In (a, n, i1) xs ->
     match dget e a with
     | Some v => exists b, h5_data i1 v = Ok b /\ dget (h5_datasets f') n = Some b
     | None => dget (h5_datasets f') n = dget (h5_datasets f) n
     end) /\
  (err = None <-> forall a n i1 v, In (a, n, i1) xs -> dget e a = Some v -> exists b, h5_data i1 v = Ok b).
Proof.
  induction xs as [|[[a n] i1] xs IH]; intros h m e f f' err He ND E.
  - cbn [fold_left] in E. injection E as <- <-. repeat split; auto; intros; try contradiction.
  - cbn [map ds_name fst snd] in ND. inversion ND as [|? ? N1 N2]; subst. cbn [fold_left] in E.
    cbn [put_dataset] in E. unfold hasattr, getattr in E. rewrite He in E.
    destruct (dget e a) as [v|] eqn:Ea.
    + cbn [rbind] in E. destruct (h5_data i1 v) as [b|ex] eqn:Eb.
      * destruct (IH h m e _ f' err He N2 E) as (A1 & A2 & A3 & A4 & A5). cbn [h5_attrs h5_datasets] in *.
        assert (Dn : dget (h5_datasets f') n = Some b) by (rewrite A2 by exact N1; rewrite dget_dset, String.eqb_refl; reflexivity).
        split; [exact A1|]. split; [|split; [|split]].
        -- intros q Hq. rewrite A2 by (intros Q; apply Hq; right; exact Q). rewrite dget_dset.
           destruct (String.eqb_spec q n) as [->|]; [|reflexivity]. exfalso. apply Hq. left; reflexivity.
        -- intros q c Hq. destruct (A3 q c Hq) as [Q|(a' & j & v' & Q1 & Q2 & Q3)].
           ++ rewrite dget_dset in Q. destruct (String.eqb_spec q n) as [->|]; [|left; exact Q].
              right. injection Q as <-. exists a, i1, v. split; [left; reflexivity|auto].
           ++ right. exists a', j, v'. split; [right; exact Q1|auto].
        -- intros Ee a' n' j [Q|Q].
           ++ injection Q as <- <- <-. rewrite Ea. exists b. auto.
           ++ specialize (A4 Ee a' n' j Q). destruct (dget e a') as [v'|]; [exact A4|]. rewrite A4, dget_dset.
              destruct (String.eqb_spec n' n) as [->|]; [|reflexivity]. exfalso. apply N1. change n with (ds_name (a', n, j)). apply in_map; exact Q.
        -- rewrite A5. split.
           ++ intros H a' n' j v' [Q|Q] Hv; [injection Q as <- <- <-; rewrite Ea in Hv; injection Hv as <-; eauto|eauto].
           ++ intros H a' n' j v' Q Hv. eapply H; [right; exact Q|exact Hv].
      * rewrite put_dataset_err in E. injection E as <- <-. split; [reflexivity|]. split; [reflexivity|]. split; [auto|]. split; [discriminate|].
        split; [discriminate|]. intros H. destruct (H a n i1 v) as (b & Q); [left; reflexivity|exact Ea|congruence].
    + destruct (IH h m e _ f' err He N2 E) as (A1 & A2 & A3 & A4 & A5). split; [exact A1|]. split; [|split; [|split]].
      * intros q Hq. apply A2. intros Q. apply Hq. right; exact Q.
      * intros q c Hq. destruct (A3 q c Hq) as [Q|(a' & j & v' & Q1 & Q2)]; [left; exact Q|]. right. exists a', j, v'. split; [right; exact Q1|exact Q2].
      * intros Ee a' n' j [Q|Q]; [|apply (A4 Ee a' n' j Q)]. injection Q as <- <- <-. rewrite Ea. apply A2; exact N1.
      * rewrite A5. split.
        -- intros H a' n' j v' [Q|Q] Hv; [injection Q as <- <- <-; congruence|eauto].
        -- intros H a' n' j v' Q Hv. eapply H; [right; exact Q|exact Hv].
Qed.

Lemma put_attrs_spec : forall xs (f f' : h5file B) err, NoDup (map fst xs) ->
  fold_left (put_attr h5_attr) xs (f, None) = (f', err) ->
  h5_datasets f' = h5_datasets f /\
  (forall k, ~ In k (map fst xs) -> dget (h5_attrs f') k = dget (h5_attrs f) k) /\
  (forall k b, dget (h5_attrs f') k = Some b -> dget (h5_attrs f) k = Some b \/
     exists v, In (k, Ok v) xs /\ h5_attr v = Ok b) /\
  (err = None -> forall k r, In (k, r) xs -> exists v b, r = Ok v /\ h5_attr v = Ok b /\ dget (h5_attrs f') k = Some b) /\
  (err = None <-> forall k r, In (k, r) xs -> exists v b, r = Ok v /\ h5_attr v = Ok b).
Proof.
  induction xs as [|[k r] xs IH]; intros f f' err ND E.
  - cbn [fold_left] in E. injection E as <- <-. repeat split; auto; intros; try contradiction.
  - cbn [map fst] in ND. inversion ND as [|? ? N1 N2]; subst. cbn [fold_left put_attr fst snd] in E.
    destruct r as [v|ex]; cbn [rbind] in E.
    + destruct (h5_attr v) as [b|ex] eqn:Eb.
      * destruct (IH _ f' err N2 E) as (A1 & A2 & A3 & A4 & A5). cbn [h5_attrs h5_datasets] in *.
        split; [exact A1|]. split; [|split; [|split]].
        -- intros q Hq. rewrite A2 by (intros Q; apply Hq; right; exact Q). rewrite dget_dset.
           destruct (String.eqb_spec q k) as [->|]; [|reflexivity]. exfalso. apply Hq. left; reflexivity.
        -- intros q c Hq. destruct (A3 q c Hq) as [Q|(v' & Q1 & Q2)].
           ++ rewrite dget_dset in Q. destruct (String.eqb_spec q k) as [->|]; [|left; exact Q].
              right. injection Q as <-. exists v. split; [left; reflexivity|auto].
           ++ right. exists v'. split; [right; exact Q1|auto].
        -- intros Ee k' r' [Q|Q].
           ++ injection Q as <- <-. exists v, b. split; [reflexivity|]. split; [exact Eb|]. rewrite A2 by exact N1. rewrite dget_dset, String.eqb_refl; reflexivity.
           ++ apply (A4 Ee k' r' Q).
        -- rewrite A5. split.
           ++ intros H k' r' [Q|Q]; [injection Q as <- <-; eauto|eauto].
           ++ intros H k' r' Q. eapply H. right; exact Q.
      * rewrite put_attr_err in E. injection E as <- <-. split; [reflexivity|]. split; [reflexivity|]. split; [auto|]. split; [discriminate|].
        split; [discriminate|]. intros H. destruct (H k (Ok v)) as (v' & b & Q & Q'); [left; reflexivity|]. injection Q as <-. congruence.
    + rewrite put_attr_err in E. injection E as <- <-. split; [reflexivity|]. split; [reflexivity|]. split; [auto|]. split; [discriminate|].
      split; [discriminate|]. intros H. destruct (H k (Raise ex)) as (v' & b & Q & Q'); [left; reflexivity|]. discriminate.
Qed.

Lemma NoDup_dget : forall {A} (d : dict A) k v, NoDup (dkeys d) -> In (k, v) d -> dget d k = Some v.
Proof.
  unfold dkeys. induction d as [|[a x] d IH]; intros k v ND H; [contradiction|]. cbn [map fst] in ND. inversion ND as [|? ? N1 N2]; subst.
  cbn [dget]. destruct H as [H|H].
  - injection H as <- <-. rewrite String.eqb_refl. reflexivity.
  - destruct (String.eqb_spec k a) as [->|]; [|apply IH; auto]. exfalso. apply N1. change a with (fst (a, v)). apply in_map; exact H.
Qed.
Lemma dget_In : forall {A} (d : dict A) k v, dget d k = Some v -> In (k, v) d.
Proof.
  induction d as [|[a x] d IH]; intros k v H; cbn [dget] in H; [discriminate|].
  destruct (String.eqb_spec k a) as [->|]; [injection H as <-; left; reflexivity|right; auto].
Qed.

(** the seven guarded writes of save_mcmc *)
Definition the_datasets : list (string * string * bool) :=
  [("logPi", "logposterior", false); ("preds", "predictions", false); ("chain", "chain", false);
   ("L2s", "L2s", false); ("priors", "priors", false);
   ("acceptance_trace", "acceptances", true); ("deltas_trace", "deltas", false)]%string.
Lemma the_datasets_nodup : NoDup (map ds_name the_datasets).
Proof.
  cbn. repeat constructor; cbn; intros Q; repeat (destruct Q as [Q|Q]; [discriminate|]); contradiction.
Qed.
Lemma dataset_source_In : forall a n i1, dataset_source n = Some (a, i1) <-> In (a, n, i1) the_datasets.
Proof.
  intros a n i1. unfold dataset_source, the_datasets. cbn [In]. split.
  - repeat match goal with |- context [String.eqb ?x ?y] => destruct (String.eqb_spec x y) as [->|] end;
    intros E; try discriminate; injection E as <- <-; tauto.
  - intros Q; repeat (destruct Q as [Q|Q]; [injection Q as <- <- <-; reflexivity|]); contradiction.
Qed.

Lemma save_all : forall fs (h : heap) m lp e d outpath filename kwargs fs' r,
  hget h m = Some e -> hget h lp = Some d -> NoDup (dkeys d) -> NoDup (dkeys kwargs) ->
  let path := path_join outpath (append filename ".hdf5") in
  save_mcmc h5_open h5_data h5_attr fs h m lp outpath filename kwargs = (fs', r) -> h5_open path = Ok tt ->
  exists f, (forall q, fs' q = if String.eqb q path then Some f else fs q) /\
    (forall n b, dget (h5_datasets f) n = Some b -> exists a i1 v, dataset_source n = Some (a, i1) /\ dget e a = Some v /\ h5_data i1 v = Ok b) /\
    (forall k b, dget (h5_attrs f) k = Some b -> exists v, h5_attr v = Ok b /\ (dget kwargs k = Some v \/ dget d k = Some v)) /\
    (r = Ok tt -> forall n, holds (fun av => h5_data (snd (fst av)) (snd av)) (h5_datasets f) n
        (match dataset_source n with Some ai => option_map (fun v => (ai, v)) (dget e (fst ai)) | None => None end)) /\
    (r = Ok tt -> forall k, holds h5_attr (h5_attrs f) k (overridden d kwargs k)) /\
    (r = Ok tt <-> (forall n a i1 v, dataset_source n = Some (a, i1) -> dget e a = Some v -> exists b, h5_data i1 v = Ok b) /\
                   (forall k v, dget d k = Some v \/ dget kwargs k = Some v -> exists b, h5_attr v = Ok b)).
Proof.
  intros fs h m lp e d outpath filename kwargs fs' r He Hd ND NK path E Ho. unfold save_mcmc in E. fold path in E. rewrite Ho in E.
  rewrite Hd in E. fold the_datasets in E.
  set (xs1 := map (fun k => (k, getattr h lp k)) (dkeys d)) in *. set (xs2 := map (fun kv => (fst kv, Ok (snd kv))) kwargs) in *.
  destruct (fold_left (put_dataset h5_data h m) the_datasets (mkH5 [] [], None)) as [f1 e1] eqn:E1.
  destruct (fold_left (put_attr h5_attr) xs1 (f1, e1)) as [f2 e2] eqn:E2.
  destruct (fold_left (put_attr h5_attr) xs2 (f2, e2)) as [f3 e3] eqn:E3. cbn [fst snd] in E.
  assert (F : map fst xs1 = dkeys d) by (unfold xs1; rewrite map_map; cbn [fst]; apply map_id).
  assert (F2 : map fst xs2 = dkeys kwargs) by (unfold xs2, dkeys; rewrite map_map; reflexivity).
  assert (I1 : forall k r, In (k, r) xs1 <-> In k (dkeys d) /\ r = match dget d k with Some v => Ok v | None => Raise AttributeError end).
  { intros k r0. unfold xs1. rewrite in_map_iff. unfold getattr. rewrite Hd. split.
    - intros (k' & Q & Q'). injection Q as <- <-. auto.
    - intros (Q & ->). exists k. auto. }
  assert (I2 : forall k r, In (k, r) xs2 <-> exists v, dget kwargs k = Some v /\ r = Ok v).
  { intros k r0. unfold xs2. rewrite in_map_iff. split.
    - intros ((k' & v) & Q & Q'). cbn [fst snd] in Q. injection Q as <- <-. exists v. split; [apply NoDup_dget; auto|reflexivity].
    - intros (v & Q & ->). exists (k, v). split; [reflexivity|apply dget_In; exact Q]. }
  assert (J : forall k, In k (dkeys d) <-> exists v, dget d k = Some v).
  { intros k. destruct (dget d k) eqn:Q.
    - split; [eauto|]. intros _. destruct (in_dec string_dec k (dkeys d)); [auto|]. apply dget_None in n. congruence.
    - apply dget_None in Q. split; [contradiction|intros (v & ?); discriminate]. }
  destruct (put_datasets_spec the_datasets h m e _ f1 e1 He the_datasets_nodup E1) as (A1 & A2 & A3 & A4 & A5). cbn [h5_attrs h5_datasets] in A1, A2, A3, A4.
  exists f3.
  assert (FS : fs' = file_put fs path f3 /\ r = match e3 with Some ex => Raise ex | None => Ok tt end) by (injection E; auto).
  destruct FS as (-> & Er). split; [reflexivity|].
  assert (DS : forall n b, dget (h5_datasets f1) n = Some b -> exists a i1 v, dataset_source n = Some (a, i1) /\ dget e a = Some v /\ h5_data i1 v = Ok b).
  { intros n b Hn. destruct (A3 n b Hn) as [Q|(a & i1 & v & Q1 & Q2 & Q3)]; [discriminate|]. exists a, i1, v. rewrite dataset_source_In. auto. }
  assert (OKd : e1 = None <-> (forall n a i1 v, dataset_source n = Some (a, i1) -> dget e a = Some v -> exists b, h5_data i1 v = Ok b)).
  { rewrite A5. split.
    - intros H n a i1 v Q Hv. apply dataset_source_In in Q. eauto.
    - intros H a n i1 v Q Hv. apply dataset_source_In in Q. eauto. }
  destruct e1 as [ex|].
  - rewrite put_attr_err in E2. injection E2 as <- <-. rewrite put_attr_err in E3. injection E3 as <- <-.
    split; [exact DS|]. rewrite A1. split; [discriminate|]. rewrite Er. split; [discriminate|]. split; [discriminate|].
    split; [discriminate|]. intros (H & _). apply OKd in H. discriminate.
  - assert (ND1 : NoDup (map fst xs1)) by (rewrite F; exact ND). assert (ND2 : NoDup (map fst xs2)) by (rewrite F2; exact NK).
    destruct (put_attrs_spec xs1 f1 f2 e2 ND1 E2) as (B1 & B2 & B3 & B4 & B5). rewrite A1 in B2, B3. cbn [dget] in B2, B3.
    assert (OKp : e2 = None <-> (forall k v, dget d k = Some v -> exists b, h5_attr v = Ok b)).
    { rewrite B5. split.
      - intros H k v Q. destruct (H k (Ok v)) as (v' & b & Q1 & Q2); [apply I1; rewrite Q; split; [apply J; eauto|reflexivity]|]. injection Q1 as <-. eauto.
      - intros H k r0 Q. apply I1 in Q. destruct Q as (Q & ->). apply J in Q. destruct Q as (v & Q). rewrite Q. destruct (H k v Q) as (b & Hb). eauto. }
    destruct e2 as [ex|].
    + rewrite put_attr_err in E3. injection E3 as <- <-. rewrite B1. split; [exact DS|]. split.
      { intros k b Hk. destruct (B3 k b Hk) as [Q|(v & Q1 & Q2)]; [discriminate|]. apply I1 in Q1. destruct Q1 as (_ & Q1).
        exists v. split; [exact Q2|]. right. destruct (dget d k); [injection Q1 as <-; reflexivity|discriminate]. }
      rewrite Er. split; [discriminate|]. split; [discriminate|]. split; [discriminate|].
      intros (_ & H). assert (Q : Some ex = None) by (apply OKp; intros k v Hk; eapply H; left; exact Hk). discriminate.
    + destruct (put_attrs_spec xs2 f2 f3 e3 ND2 E3) as (C1 & C2 & C3 & C4 & C5). rewrite C1, B1. split; [exact DS|]. split.
      { intros k b Hk. destruct (C3 k b Hk) as [Q|(v & Q1 & Q2)].
        - destruct (B3 k b Q) as [Q0|(v & Q1 & Q2)]; [discriminate|]. apply I1 in Q1. destruct Q1 as (_ & Q1).
          exists v. split; [exact Q2|]. right. destruct (dget d k); [injection Q1 as <-; reflexivity|discriminate].
        - apply I2 in Q1. destruct Q1 as (v' & Q1 & Q3). injection Q3 as <-. exists v. auto. }
      assert (OKk : e3 = None <-> (forall k v, dget kwargs k = Some v -> exists b, h5_attr v = Ok b)).
      { rewrite C5. split.
        - intros H k v Q. destruct (H k (Ok v)) as (v' & b & Q1 & Q2); [apply I2; eauto|]. injection Q1 as <-. eauto.
        - intros H k r0 Q. apply I2 in Q. destruct Q as (v & Q & ->). destruct (H k v Q) as (b & Hb). eauto. }
      assert (RE : r = Ok tt <-> e3 = None) by (rewrite Er; destruct e3; split; congruence).
      split; [|split].
      * intros _ n. unfold holds. destruct (dataset_source n) as [[a i1]|] eqn:Sn.
        -- apply dataset_source_In in Sn. specialize (A4 eq_refl a n i1 Sn). cbn [fst]. destruct (dget e a) as [v|]; cbn [option_map fst snd]; exact A4.
        -- destruct (dget (h5_datasets f1) n) eqn:Q; [|reflexivity]. destruct (DS n b Q) as (a & i1 & v & Q1 & _). congruence.
      * intros Hr k. apply RE in Hr. unfold holds, overridden.
        destruct (dget kwargs k) as [v|] eqn:Ek.
        { destruct (C4 Hr k (Ok v)) as (v' & b & Q1 & Q2 & Q3); [apply I2; eauto|]. injection Q1 as <-. eauto. }
        assert (NI : ~ In k (map fst xs2)) by (rewrite F2; apply dget_None; exact Ek). specialize (C2 k NI).
        destruct (dget d k) as [v|] eqn:Ed.
        { destruct (B4 eq_refl k (Ok v)) as (v' & b & Q1 & Q2 & Q3); [apply I1; rewrite Ed; split; [apply J; eauto|reflexivity]|].
          injection Q1 as <-. exists b. rewrite C2. auto. }
        rewrite C2, B2; [reflexivity|]. rewrite F. apply dget_None; exact Ed.
      * rewrite RE, OKk. split.
        -- intros H. split; [apply OKd; reflexivity|]. intros k v [Q|Q]; [apply (proj1 OKp eq_refl k v Q)|eauto].
        -- intros (_ & H) k v Q. eauto.
Qed.
End Save.

(** ** C18 *)

(** On success the file at the path holds, for each documented dataset name,
    the sampler's attribute if it exists and nothing otherwise (no other
    dataset), and exactly the params attributes overridden by the keyword
    arguments.  No other file changes.  Python dictionaries have distinct keys. *)
Theorem C18_contents : forall V D K P X B h5_open h5_data h5_attr fs (h : heap V D K P X) m lp e d outpath filename kwargs fs',
  hget h m = Some e -> hget h lp = Some d -> NoDup (dkeys d) -> NoDup (dkeys kwargs) ->
  save_mcmc (B := B) h5_open h5_data h5_attr fs h m lp outpath filename kwargs = (fs', Ok tt) ->
  let path := path_join outpath (append filename ".hdf5") in
  exists f, fs' path = Some f /\ (forall q, q <> path -> fs' q = fs q) /\
    (forall n, match dataset_source n with
               | Some (a, i1) => holds (h5_data i1) (h5_datasets f) n (dget e a)
               | None => dget (h5_datasets f) n = None
               end) /\
    (forall k, holds h5_attr (h5_attrs f) k (overridden d kwargs k)).
Proof.
  intros V D K P X B ho hd ha fs h m lp e d outpath filename kwargs fs' He Hd ND NK E path.
  assert (Ho : ho path = Ok tt).
  { unfold save_mcmc in E. fold path in E. destruct (ho path) as [[]|] eqn:Q; [reflexivity|]. injection E; discriminate. }
  destruct (save_all ho hd ha fs h m lp e d outpath filename kwargs fs' (Ok tt) He Hd ND NK E Ho) as (f & A1 & _ & _ & A4 & A5 & _).
  fold path in A1. exists f. split; [rewrite A1, String.eqb_refl; reflexivity|]. split; [|split; [|apply A5; reflexivity]].
  - intros q Hq. rewrite A1. apply String.eqb_neq in Hq. rewrite Hq. reflexivity.
  - intros n. specialize (A4 eq_refl n). destruct (dataset_source n) as [[a i1]|]; [|exact A4]. cbn [fst] in A4. unfold holds in *.
    destruct (dget e a); exact A4.
Qed.
Print Assumptions C18_contents.

(** Nothing of a previous file survives, in every outcome: what is in the file
    and the result do not depend on the file system before. *)
Theorem C18_fresh_file : forall V D K P X B h5_open h5_data h5_attr (h : heap V D K P X) m lp outpath filename kwargs,
  let path := path_join outpath (append filename ".hdf5") in
  exists (new : option (h5file B)) r, forall fs,
    save_mcmc h5_open h5_data h5_attr fs h m lp outpath filename kwargs =
      (match new with Some f => file_put fs path f | None => fs end, r) /\
    ((exists f, new = Some f) <-> h5_open path = Ok tt).
Proof.
  intros V D K P X B ho hd ha h m lp outpath filename kwargs path. unfold save_mcmc. fold path.
  destruct (ho path) as [[]|ex] eqn:Ho.
  - eexists (Some _), _. intros fs. split; [reflexivity|]. split; eauto.
  - exists None, (Raise ex). intros fs. split; [reflexivity|]. split; [intros (f & Q)|]; discriminate.
Qed.
Print Assumptions C18_fresh_file.

(** It succeeds iff h5py can open the file and convert every value; after a
    failure the file holds only correct entries. *)
Theorem C18_success_and_failure : forall V D K P X B h5_open h5_data h5_attr fs (h : heap V D K P X) m lp e d outpath filename kwargs,
  hget h m = Some e -> hget h lp = Some d -> NoDup (dkeys d) -> NoDup (dkeys kwargs) ->
  let path := path_join outpath (append filename ".hdf5") in
  let (fs', r) := save_mcmc (B := B) h5_open h5_data h5_attr fs h m lp outpath filename kwargs in
  (r = Ok tt <-> h5_open path = Ok tt /\
     (forall n a i1 v, dataset_source n = Some (a, i1) -> dget e a = Some v -> exists b, h5_data i1 v = Ok b) /\
     (forall k v, dget d k = Some v \/ dget kwargs k = Some v -> exists b, h5_attr v = Ok b)) /\
  (forall ex, h5_open path = Raise ex -> r = Raise ex /\ fs' = fs) /\
  (h5_open path = Ok tt -> exists f, fs' = file_put fs path f /\
     (forall n b, dget (h5_datasets f) n = Some b -> exists a i1 v, dataset_source n = Some (a, i1) /\ dget e a = Some v /\ h5_data i1 v = Ok b) /\
     (forall k b, dget (h5_attrs f) k = Some b -> exists v, h5_attr v = Ok b /\ (dget kwargs k = Some v \/ dget d k = Some v))).
Proof.
  intros V D K P X B ho hd ha fs h m lp e d outpath filename kwargs He Hd ND NK path.
  destruct (save_mcmc _ _ _ _ _ _ _ _ _ _) as [fs' r] eqn:E.
  destruct (ho path) as [[]|ex] eqn:Ho.
  - destruct (save_all ho hd ha fs h m lp e d outpath filename kwargs fs' r He Hd ND NK E Ho) as (f & A1 & A2 & A3 & _ & _ & A6).
    split; [rewrite A6; tauto|]. split; [discriminate|]. intros _. exists f. split; [|split; assumption].
    unfold save_mcmc in E. fold path in E. rewrite Ho in E. assert (E' := f_equal fst E). cbn [fst] in E'. rewrite <- E'.
    f_equal. assert (Q := A1 path). fold path in Q. rewrite String.eqb_refl in Q. rewrite <- E' in Q. unfold file_put in Q. rewrite String.eqb_refl in Q.
    injection Q; auto.
  - unfold save_mcmc in E. fold path in E. rewrite Ho in E. injection E as <- <-. split; [|split].
    + split; [discriminate|intros (Q & _); discriminate].
    + intros ex' Q. injection Q as <-. auto.
    + discriminate.
Qed.
Print Assumptions C18_success_and_failure.

(** the path: outpath/filename.hdf5 *)
Definition no_trailing_slash (a : string) : Prop := forall b, a <> append b "/".
Lemma ends_slash_spec : forall a, ends_with_slash a = true <-> exists b, a = append b "/".
Proof.
  induction a as [|c a IH]; cbn [ends_with_slash].
  - split; [discriminate|]. intros ([|? ?] & Q); discriminate.
  - destruct a as [|c' a'].
    + split.
      * intros Q. apply Ascii.eqb_eq in Q. subst. exists EmptyString. reflexivity.
      * intros ([|x b] & Q); cbn in Q; [injection Q as ->; reflexivity|]. injection Q as _ Q. destruct b; discriminate.
    + rewrite IH. split.
      * intros (b & ->). exists (String c b). reflexivity.
      * intros ([|x b] & Q); cbn in Q; [discriminate|]. injection Q as _ Q. eauto.
Qed.
Theorem C18_path : forall outpath filename,
  (forall s, filename <> String "/" s) ->
  (outpath <> ""%string -> no_trailing_slash outpath ->
     path_join outpath (append filename ".hdf5") = append outpath (String "/" (append filename ".hdf5"))) /\
  (forall s, path_join (append s "/") (append filename ".hdf5") = append (append s "/") (append filename ".hdf5")) /\
  path_join "" (append filename ".hdf5") = append filename ".hdf5" /\
  (forall s, path_join outpath (String "/" s) = String "/" s).
Proof.
  intros outpath filename Hf. assert (S0 : starts_with_slash (append filename ".hdf5") = false).
  { destruct filename as [|c s]; [reflexivity|]. cbn. destruct (Ascii.eqb_spec c "/") as [->|]; [|reflexivity]. exfalso. eapply Hf; reflexivity. }
  unfold path_join. rewrite S0. split; [|split].
  - intros N T. apply String.eqb_neq in N. rewrite N. cbn [orb]. destruct (ends_with_slash outpath) eqn:Q; [|reflexivity].
    apply ends_slash_spec in Q. destruct Q as (b & Q). exfalso. eapply T; exact Q.
  - intros s. assert (Q : ends_with_slash (append s "/") = true) by (apply ends_slash_spec; eauto). rewrite Q, orb_true_r. reflexivity.
  - split; [reflexivity|]. intros s. reflexivity.
Qed.
Print Assumptions C18_path.

(** ** C44 *)

Section Heap.
Context {V D K P G I X : Type}.
Notation pyval := (pyval V D K P X).
Notation heap := (heap V D K P X).
Notation world := (pyworld V D K P G X).
Variables (zK : K) (zD : D) (zV : V) (mko : dict pyval -> ops V D K P G I).
Notation session := (session zK zD zV mko).
Notation exec := (exec zK zD zV mko).

Lemma run_frame : forall (w : world) l k fuel start l', l' <> l ->
  hget (py_heap (fst (run_sampler mko w l k fuel start))) l' = hget (py_heap w) l'.
Proof.
  intros w l k fuel start l' N. unfold run_sampler. destruct (hget (py_heap w) l) as [d|] eqn:Hd; [|reflexivity].
  destruct (read_params d) as [prm|]; [|reflexivity]. destruct (read_inst d (py_out w)) as [s|]; [|reflexivity].
  destruct (run_kind _ _ _ _ _ _) as [w' r]. cbn [fst py_heap]. unfold hget in *. rewrite nth_error_upd by (apply nth_error_Some; congruence).
  rewrite (proj2 (Nat.eqb_neq _ _) N). reflexivity.
Qed.

Lemma exec_frame : forall (w : world) a l d, (forall k fuel start, a <> ARun l k fuel start) ->
  hget (py_heap w) l = Some d -> hget (py_heap (exec w a)) l = Some d.
Proof.
  intros w [f p lp|l' k fuel start] l d N H; cbn [Objects.exec].
  - destruct (PxMCMC_init _ _ _ _ _ _ _) as [[h' s]|] eqn:E; [|exact H]. destruct (PxMCMC_init_frame _ _ _ _ _ _ _ _ _ E) as (_ & F).
    cbn [py_heap]. rewrite F; [exact H|]. apply nth_error_Some. unfold hget in H. congruence.
  - rewrite run_frame; [exact H|]. intros ->. eapply N; reflexivity.
Qed.

Lemma session_frame : forall acts (w : world) l d, never_run l acts -> hget (py_heap w) l = Some d ->
  hget (py_heap (session w acts)) l = Some d.
Proof.
  unfold Objects.session. induction acts as [|a acts IH]; intros w l d N H; [exact H|]. cbn [fold_left]. apply IH.
  - intros l' k fuel start Q. apply (N l' k fuel start). right; exact Q.
  - apply exec_frame; [|exact H]. intros k fuel start ->. apply (N l k fuel start); [left; reflexivity|reflexivity].
Qed.

Lemma dget_dset_opt : forall {A} (d : dict pyval) k (mk : A -> pyval) o k',
  dget (dset_opt d k mk o) k' = if String.eqb k' k then (match o with Some a => Some (mk a) | None => dget d k' end) else dget d k'.
Proof. intros A d k mk [a|] k'; unfold dset_opt; [rewrite dget_dset|]; destruct (String.eqb k' k); reflexivity. Qed.

Lemma dget_write : forall (d : dict pyval) (s : inst V D K P) k, dget (write_inst d s) k =
  if String.eqb k "delta" then Some (VStep (i_delta s)) else
  if String.eqb k "deltas_trace" then match i_deltas s with Some a => Some (VDeltas a) | None => dget d k end else
  if String.eqb k "acceptance_trace" then match i_acc s with Some a => Some (VAcc a) | None => dget d k end else
  if String.eqb k "chain" then match i_chain s with Some a => Some (VChain a) | None => dget d k end else
  if String.eqb k "preds" then match i_preds s with Some a => Some (VPred a) | None => dget d k end else
  if String.eqb k "priors" then match i_priors s with Some a => Some (VScal a) | None => dget d k end else
  if String.eqb k "L2s" then match i_L2s s with Some a => Some (VScal a) | None => dget d k end else
  if String.eqb k "logPi" then match i_logPi s with Some a => Some (VScal a) | None => dget d k end else dget d k.
Proof.
  intros d s k. unfold write_inst. rewrite dget_dset, !dget_dset_opt.
  repeat match goal with |- context [String.eqb k ?y] => destruct (String.eqb_spec k y) as [->|]; [cbn; reflexivity|] end. reflexivity.
Qed.

(** one run of a sampler object: its arrays keep existence and size, and no
    attribute outside [run_attrs] changes *)
Lemma run_object : forall (w : world) l k fuel start e tr n, hget (py_heap w) l = Some e -> tracked_arrays e tr n ->
  exists e', hget (py_heap (fst (run_sampler mko w l k fuel start))) l = Some e' /\ tracked_arrays e' tr n /\
    (forall a, ~ In a run_attrs -> dget e' a = dget e a) /\
    ((forall t, k <> KPxmala t) -> forall a, In a ["acceptance_trace"; "deltas_trace"; "delta"]%string -> 
       forall v, dget e a = Some v -> (a = "acceptance_trace"%string -> exists x, v = VAcc x) -> (a = "deltas_trace"%string -> exists x, v = VDeltas x) -> dget e' a = Some v) /\
    ((forall t, k <> KPxmala t) -> dget e "acceptance_trace" = None -> dget e "deltas_trace" = None ->
        dget e' "acceptance_trace" = None /\ dget e' "deltas_trace" = None) /\
    (dget e "track" = Some (VNames tr) -> dget e' "track" = Some (VNames tr)).
Proof.
  intros w l k fuel start e tr n He TA. unfold run_sampler. rewrite He.
  assert (SAME : exists e', hget (py_heap w) l = Some e' /\ tracked_arrays e' tr n /\
    (forall a, ~ In a run_attrs -> dget e' a = dget e a) /\
    ((forall t, k <> KPxmala t) -> forall a, In a ["acceptance_trace"; "deltas_trace"; "delta"]%string -> 
       forall v, dget e a = Some v -> (a = "acceptance_trace"%string -> exists x, v = VAcc x) -> (a = "deltas_trace"%string -> exists x, v = VDeltas x) -> dget e' a = Some v) /\
    ((forall t, k <> KPxmala t) -> dget e "acceptance_trace" = None -> dget e "deltas_trace" = None ->
        dget e' "acceptance_trace" = None /\ dget e' "deltas_trace" = None) /\
    (dget e "track" = Some (VNames tr) -> dget e' "track" = Some (VNames tr))).
  { exists e. split; [exact He|]. split; [exact TA|]. repeat match goal with |- _ /\ _ => split end; auto. }
  destruct (read_params e) as [prm|]; [|exact SAME].
  destruct (read_inst e (py_out w)) as [s|] eqn:Es; [|exact SAME]. clear SAME. destruct TA as (T1 & T2 & T3 & T4 & T5).
  assert (SH := run_same_shape k (mko e) prm fuel start (mkWorld s (py_rng w))).
  assert (ST := fun H => run_same_traces k (mko e) prm fuel start (mkWorld s (py_rng w)) H).
  destruct (run_kind _ _ _ _ _ _) as [w' r]. cbn [fst py_heap w_inst] in *.
  eexists. split; [unfold hget in *; rewrite nth_error_upd by (apply nth_error_Some; congruence); rewrite Nat.eqb_refl; reflexivity|].
  unfold read_inst in Es. destruct (dget e "delta") as [[]|] eqn:Ed; try discriminate. injection Es as <-.
  destruct SH as (S1 & S2 & S3 & S4 & S5). cbn [i_logPi i_L2s i_priors i_preds i_chain] in *.
  split.
  { unfold tracked_arrays, array_attr in *. rewrite !dget_write. cbn [String.eqb Ascii.eqb Bool.eqb].
    split; [|split; [|split; [|split]]].
    - destruct (str_in "logposterior" tr); [destruct T1 as (x & T1 & L)|]; rewrite T1 in *; cbn [opt_scal] in S1;
      destruct (i_logPi (w_inst w')); try discriminate; [|reflexivity]. cbn in S1. eexists. split; [reflexivity|congruence].
    - destruct (str_in "L2" tr); [destruct T2 as (x & T2 & L)|]; rewrite T2 in *; cbn [opt_scal] in S2;
      destruct (i_L2s (w_inst w')); try discriminate; [|reflexivity]. cbn in S2. eexists. split; [reflexivity|congruence].
    - destruct (str_in "prior" tr); [destruct T3 as (x & T3 & L)|]; rewrite T3 in *; cbn [opt_scal] in S3;
      destruct (i_priors (w_inst w')); try discriminate; [|reflexivity]. cbn in S3. eexists. split; [reflexivity|congruence].
    - destruct (str_in "predictions" tr); [destruct T4 as (x & T4 & L)|]; rewrite T4 in *; cbn [opt_pred] in S4;
      destruct (i_preds (w_inst w')); try discriminate; [|reflexivity]. cbn in S4. eexists. split; [reflexivity|congruence].
    - destruct (str_in "chain" tr); [destruct T5 as (x & T5 & L)|]; rewrite T5 in *; cbn [opt_chain] in S5;
      destruct (i_chain (w_inst w')); try discriminate; [|reflexivity]. cbn in S5. eexists. split; [reflexivity|congruence]. }
  split.
  { intros a Ha. rewrite dget_write. unfold run_attrs in Ha. cbn [In] in Ha.
    repeat match goal with |- context [String.eqb a ?y] => destruct (String.eqb_spec a y) as [->|]; [exfalso; tauto|] end. reflexivity. }
  split; [|split].
  - intros Hk a Ha v Hv H1 H2. destruct (ST Hk) as (R1 & R2 & R3). cbn [i_acc i_deltas i_delta] in *.
    rewrite dget_write. destruct Ha as [<-|[<-|[<-|[]]]]; cbn [String.eqb Ascii.eqb Bool.eqb].
    + destruct (H1 eq_refl) as (x & ->). rewrite R1, Hv. reflexivity.
    + destruct (H2 eq_refl) as (x & ->). rewrite R2, Hv. reflexivity.
    + rewrite R3. congruence.
  - intros Hk H1 H2. destruct (ST Hk) as (R1 & R2 & R3). cbn [i_acc i_deltas i_delta] in *. rewrite !dget_write. cbn [String.eqb Ascii.eqb Bool.eqb].
    rewrite R1, R2, H1, H2. auto.
  - intros H. rewrite dget_write. exact H.
Qed.

Lemma session_object : forall acts (w : world) l e tr n, hget (py_heap w) l = Some e -> tracked_arrays e tr n ->
  exists e', hget (py_heap (session w acts)) l = Some e' /\ tracked_arrays e' tr n /\ (forall a, ~ In a run_attrs -> dget e' a = dget e a).
Proof.
  unfold Objects.session. induction acts as [|a acts IH]; intros w l e tr n He T.
  - exists e. auto.
  - cbn [fold_left].
    assert (A : exists e1, hget (py_heap (exec w a)) l = Some e1 /\ tracked_arrays e1 tr n /\ (forall a, ~ In a run_attrs -> dget e1 a = dget e a)).
    { destruct a as [f p lp|l' k fuel start].
      - exists e. split; [apply exec_frame; [discriminate|exact He]|auto].
      - destruct (Nat.eq_dec l' l) as [->|N].
        + cbn [Objects.exec]. destruct (run_object w l k fuel start e tr n He T) as (e1 & A1 & A2 & A3 & _). exists e1. auto.
        + exists e. split; [apply exec_frame; [intros k' f' s' Q; congruence|exact He]|auto]. }
    destruct A as (e1 & A1 & A2 & A3). destruct (IH (exec w a) l e1 tr n A1 A2) as (e2 & B1 & B2 & B3).
    exists e2. split; [exact B1|]. split; [exact B2|]. intros q Hq. rewrite B3, A3; auto.
Qed.

(** the two traces of PxMALA appear only by running PxMALA on the object *)
Lemma session_traces : forall acts (w : world) l e tr n, never_pxmala l acts -> hget (py_heap w) l = Some e -> tracked_arrays e tr n ->
  dget e "acceptance_trace" = None -> dget e "deltas_trace" = None ->
  exists e', hget (py_heap (session w acts)) l = Some e' /\ dget e' "acceptance_trace" = None /\ dget e' "deltas_trace" = None /\ dget e' "delta" = dget e "delta".
Proof.
  unfold Objects.session. induction acts as [|a acts IH]; intros w l e tr n NP He T H1 H2.
  - exists e. auto.
  - cbn [fold_left].
    assert (A : exists e1, hget (py_heap (exec w a)) l = Some e1 /\ tracked_arrays e1 tr n /\ dget e1 "acceptance_trace" = None /\ dget e1 "deltas_trace" = None /\
                           dget e1 "delta" = dget e "delta").
    { destruct a as [f p lp|l' k fuel start].
      - exists e. split; [apply exec_frame; [discriminate|exact He]|auto].
      - destruct (Nat.eq_dec l' l) as [->|N].
        + cbn [Objects.exec]. destruct (run_object w l k fuel start e tr n He T) as (e1 & A1 & A2 & A3 & A4 & A5 & _).
          assert (Hk : forall t, k <> KPxmala t) by (intros t ->; apply (NP t fuel start); left; reflexivity).
          destruct (A5 Hk H1 H2) as (B1 & B2). exists e1. split; [exact A1|]. split; [exact A2|]. split; [exact B1|]. split; [exact B2|].
          destruct (dget e "delta") as [v|] eqn:Ed.
          * apply (A4 Hk "delta"%string); auto; [right; right; left; reflexivity|discriminate|discriminate].
          * unfold run_sampler in A1. rewrite He in A1. unfold read_inst in A1. rewrite Ed in A1.
            destruct (read_params e); cbn [fst] in A1; congruence.
        + exists e. split; [apply exec_frame; [intros k' f' s' Q; congruence|exact He]|auto]. }
    destruct A as (e1 & A1 & A2 & A3 & A4 & A5). destruct (IH (exec w a) l e1 tr n) as (e2 & B1 & B2 & B3 & B4); auto.
    { intros t fuel start Q. apply (NP t fuel start). right; exact Q. }
    exists e2. rewrite B4, A5. auto.
Qed.
End Heap.

(** No session (constructing samplers, running them to any point, with any
    outcome) changes a params object. *)
Theorem C44_params_untouched : forall V D K P G I X zK zD zV mko (w : pyworld V D K P G X) (acts : list (action V D K P I X)) lp d,
  hget (py_heap w) lp = Some d -> never_run lp acts -> hget (py_heap (session zK zD zV mko w acts)) lp = Some d.
Proof. intros. apply session_frame; assumption. Qed.
Print Assumptions C44_params_untouched.

(** So save_mcmc, after any session, records the initial step size. *)
Theorem C44_saved_delta : forall V D K P G I X B zK zD zV mko (w : pyworld V D K P G X) (acts : list (action V D K P I X))
    h5_open h5_data h5_attr fs lp m lmda delta mu s n b g cx v tr outpath filename kwargs fs',
  hget (py_heap w) lp = Some (params_dict lmda delta mu s n b g cx v tr) -> never_run lp acts ->
  (exists e, hget (py_heap (session zK zD zV mko w acts)) m = Some e) ->
  NoDup (dkeys kwargs) -> dget kwargs "delta" = None ->
  save_mcmc (B := B) h5_open h5_data h5_attr fs (py_heap (session zK zD zV mko w acts)) m lp outpath filename kwargs = (fs', Ok tt) ->
  exists f x, fs' (path_join outpath (append filename ".hdf5")) = Some f /\ h5_attr delta = Ok x /\ dget (h5_attrs f) "delta" = Some x.
Proof.
  intros V D K P G I X B zK zD zV mko w acts ho hd ha fs lp m lmda delta mu s n b g cx v tr outpath filename kwargs fs' Hd NR (e & He) NK Hk E.
  assert (Hd' := C44_params_untouched _ _ _ _ _ _ _ zK zD zV mko w acts lp _ Hd NR).
  assert (ND : NoDup (dkeys (params_dict lmda delta mu s n b g cx v tr))).
  { cbn. repeat constructor; cbn; intros Q; repeat (destruct Q as [Q|Q]; [discriminate|]); contradiction. }
  destruct (C18_contents V D K P X B ho hd ha fs _ m lp e _ outpath filename kwargs fs' He Hd' ND NK E) as (f & F1 & _ & _ & F4).
  specialize (F4 "delta"%string). unfold holds, overridden in F4. rewrite Hk in F4. cbn in F4. destruct F4 as (x & F4 & F5). exists f, x. auto.
Qed.
Print Assumptions C44_saved_delta.

(** A sampler constructed at any moment starts from the params object: its
    attributes are a new sampler's, whatever was constructed or run before;
    construction succeeds iff nsamples >= 0 or nothing known is tracked, and
    changes no existing object. *)
Theorem C44_construction : forall V D K P G I X (o : ops V D K P G I) mko (w : pyworld V D K P G X) (acts : list (action V D K P I X))
    f p lp lmda delta mu s n b g cx v tr,
  hget (py_heap w) lp = Some (params_dict lmda (VStep delta) mu s n b g cx v tr) -> never_run lp acts ->
  let prm := {| p_nsamples := n; p_nburn := b; p_ngap := g; p_verbosity := v; p_track := tr |} in
  let h := py_heap (session (o_zeroK o) (o_zeroD o) (o_zeroV o) mko w acts) in
  match PxMCMC_init (o_zeroK o) (o_zeroD o) (o_zeroV o) h f p lp with
  | Raise ex => new_sampler o prm delta = Raise ex
  | Ok (h', self) =>
      exists e s0, hget h' self = Some e /\ read_params e = Ok prm /\ new_sampler o prm delta = Ok s0 /\
        (forall out, read_inst e out = Ok (set_out out s0)) /\
        dget e "forward" = Some f /\ (dget e "prior" = Some p) /\ dget e "lmda" = Some lmda /\ dget e "mu" = Some mu /\
        dget e "s" = Some s /\ dget e "complex" = Some cx /\
        (forall l d, hget h l = Some d -> hget h' l = Some d) /\ hget h self = None
  end.
Proof.
  intros V D K P G I X o mko w acts f p lp lmda delta mu s n b g cx v tr Hd NR prm h.
  assert (Hd' : hget h lp = Some (params_dict lmda (VStep delta) mu s n b g cx v tr)) by (apply session_frame; assumption).
  destruct (PxMCMC_init _ _ _ h f p lp) as [[h' self]|ex] eqn:E.
  - destruct (PxMCMC_init_frame _ _ _ _ _ _ _ _ _ E) as (Es & F).
    destruct (PxMCMC_init_object _ _ _ _ _ _ _ _ _ _ _ _ _ _ _ _ _ _ _ Hd' E) as (Hn & e & He & G0).
    assert (Q : forall {A} (c : bool) (z : A), (c = true -> 0 <= n) -> opt_array c n z = Ok (if c then Some (repeat z (Z.to_nat n)) else None)).
    { intros A [|] z Hc; unfold opt_array, np_zeros; [|reflexivity]. specialize (Hc eq_refl). destruct (Z.ltb_spec n 0); [lia|reflexivity]. }
    exists e. eexists. split; [exact He|]. split; [|split; [|split]].
    + unfold read_params. rewrite !G0. cbn [String.eqb Ascii.eqb Bool.eqb]. rewrite !andb_false_r. cbn. reflexivity.
    + unfold new_sampler. cbn [p_nsamples p_track prm].
      rewrite !Q by (intros H; apply Hn; rewrite H, ?orb_true_r; reflexivity). cbn [rbind]. reflexivity.
    + intros out. unfold read_inst. rewrite !G0. cbn [String.eqb Ascii.eqb Bool.eqb]. rewrite !andb_false_r, !andb_true_r. cbn.
      unfold set_out. cbn [i_logPi i_L2s i_priors i_preds i_chain i_acc i_deltas i_delta].
      destruct (str_in "logposterior" tr), (str_in "predictions" tr), (str_in "chain" tr), (str_in "L2" tr), (str_in "prior" tr); reflexivity.
    + rewrite !G0. cbn [String.eqb Ascii.eqb Bool.eqb]. rewrite !andb_false_r. cbn.
      repeat match goal with |- _ /\ _ => split end; auto.
      * intros l d Hl. rewrite F; [exact Hl|]. apply nth_error_Some. unfold hget in Hl. congruence.
      * rewrite Es. unfold hget. apply nth_error_None. lia.
  - (* failure *)
    assert (Hneg : 0 <= n \/ n < 0) by lia.
    (* success whenever 0 <= n, so n < 0 and some known name is tracked *)
    revert E. unfold PxMCMC_init. rewrite Hd'. intros E.
    set (sf := length h) in *. set (h0 := h ++ [[]]) in *.
    assert (S0 : hget h0 sf = Some []) by (unfold hget, h0, sf; rewrite nth_error_app2, Nat.sub_diag by lia; reflexivity).
    set (h1 := setattr h0 sf "forward" f) in *. assert (F1 := fun l => hget_setattr h0 sf "forward" f l _ S0). fold h1 in F1.
    assert (S1 : hget h1 sf = Some (dset [] "forward" f)) by (rewrite F1, Nat.eqb_refl; auto).
    set (h2 := setattr h1 sf "prior" p) in *. assert (F2 := fun l => hget_setattr h1 sf "prior" p l _ S1). fold h2 in F2.
    set (d := params_dict lmda (VStep delta) mu s n b g cx v tr) in *.
    assert (Lp : (lp < sf)%nat) by (apply nth_error_Some; unfold hget in Hd'; congruence).
    assert (D2 : hget h2 lp = Some d).
    { rewrite F2, F1. rewrite (proj2 (Nat.eqb_neq _ _)) by lia. unfold hget, h0. rewrite nth_error_app1 by exact Lp. exact Hd'. }
    assert (S2 : hget h2 sf = Some (dset (dset [] "forward" f) "prior" p)) by (rewrite F2, Nat.eqb_refl; auto).
    assert (C3 : exists e, hget (copy_attrs h2 lp sf) sf = Some e /\
       forall k, dget e k = if str_in k (dkeys d) then dget d k else dget (dset (dset [] "forward" f) "prior" p) k).
    { unfold copy_attrs. rewrite D2. apply (copy_attrs_fold (dkeys d) h2 lp sf d); auto. lia. }
    destruct C3 as (e3 & S3 & G3). set (h3 := copy_attrs h2 lp sf) in *. clearbody h3.
    assert (T3 : dget e3 "track" = Some (VNames tr)) by (rewrite G3; reflexivity).
    assert (N3 : dget e3 "nsamples" = Some (VInt n)) by (rewrite G3; reflexivity).
    assert (ST : forall name attr mk (hh : heap V D K P X) ee, hget hh sf = Some ee -> dget ee "track" = Some (VNames tr) -> dget ee "nsamples" = Some (VInt n) ->
       String.eqb "track" attr = false -> String.eqb "nsamples" attr = false ->
       match init_array hh sf name attr mk with
       | Ok hh' => (str_in name tr = false \/ 0 <= n) /\ exists ee', hget hh' sf = Some ee' /\ dget ee' "track" = Some (VNames tr) /\ dget ee' "nsamples" = Some (VInt n)
       | Raise x => x = ValueError /\ str_in name tr = true /\ n < 0
       end).
    { intros name attr mk hh ee A1 A2 A3 A4 A5. destruct (init_array hh sf name attr mk) as [hh'|x] eqn:Ei.
      - destruct (init_array_spec _ _ _ _ _ _ _ tr n A1 A2 A3 Ei) as (_ & P4 & e4 & S4 & G4).
        split; [destruct (str_in name tr); [right; auto|left; auto]|]. exists e4. rewrite !G4, A4, A5, !andb_false_r. auto.
      - unfold init_array, getattr in Ei. rewrite A1, A2 in Ei. cbn [rbind as_names] in Ei. destruct (str_in name tr); [|discriminate].
        rewrite A3 in Ei. cbn [rbind as_int] in Ei. destruct (Z.ltb_spec n 0); [|discriminate]. injection Ei as <-. auto. }
    assert (OA : forall {A} (c : bool) (z : A), c = false \/ 0 <= n -> exists q, opt_array c n z = Ok q).
    { intros A [|] z Hc; unfold opt_array, np_zeros; [|eauto]. destruct (Z.ltb_spec n 0); [destruct Hc; [discriminate|lia]|cbn [rbind]; eauto]. }
    assert (OR : forall {A} (c : bool) (z : A), c = true -> n < 0 -> opt_array c n z = Raise ValueError).
    { intros A c z -> Hc. unfold opt_array, np_zeros. destruct (Z.ltb_spec n 0); [reflexivity|lia]. }
    unfold initialise_tracking_arrays in E. unfold new_sampler. cbn [p_nsamples p_track prm].
    pose proof (ST "logposterior"%string "logPi"%string (fun n0 => VScal (repeat (o_zeroK o) n0)) h3 e3 S3 T3 N3 eq_refl eq_refl) as Q1.
    destruct (init_array h3 sf "logposterior" _ _) as [h4|x]; cbn [rbind] in E.
    2:{ destruct Q1 as (-> & Q1 & Q2). rewrite (OR _ _ (o_zeroK o) Q1 Q2). cbn [rbind]. injection E as <-; reflexivity. }
    destruct Q1 as (P1 & e4 & S4 & T4 & N4). destruct (OA _ (str_in "logposterior" tr) (o_zeroK o) P1) as (q1 & ->). cbn [rbind].
    pose proof (ST "predictions"%string "preds"%string (fun n0 => VPred (repeat (o_zeroD o) n0)) h4 e4 S4 T4 N4 eq_refl eq_refl) as Q1.
    destruct (init_array h4 sf "predictions" _ _) as [h5|x]; cbn [rbind] in E.
    2:{ destruct Q1 as (-> & Q1 & Q2). rewrite (OR _ _ (o_zeroD o) Q1 Q2). cbn [rbind]. injection E as <-; reflexivity. }
    destruct Q1 as (P2 & e5 & S5 & T5 & N5). destruct (OA _ (str_in "predictions" tr) (o_zeroD o) P2) as (q2 & ->). cbn [rbind].
    pose proof (ST "chain"%string "chain"%string (fun n0 => VChain (repeat (o_zeroV o) n0)) h5 e5 S5 T5 N5 eq_refl eq_refl) as Q1.
    destruct (init_array h5 sf "chain" _ _) as [h6|x]; cbn [rbind] in E.
    2:{ destruct Q1 as (-> & Q1 & Q2). rewrite (OR _ _ (o_zeroV o) Q1 Q2). cbn [rbind]. injection E as <-; reflexivity. }
    destruct Q1 as (P3 & e6 & S6 & T6 & N6). destruct (OA _ (str_in "chain" tr) (o_zeroV o) P3) as (q3 & ->). cbn [rbind].
    pose proof (ST "L2"%string "L2s"%string (fun n0 => VScal (repeat (o_zeroK o) n0)) h6 e6 S6 T6 N6 eq_refl eq_refl) as Q1.
    destruct (init_array h6 sf "L2" _ _) as [h7|x]; cbn [rbind] in E.
    2:{ destruct Q1 as (-> & Q1 & Q2). rewrite (OR _ _ (o_zeroK o) Q1 Q2). cbn [rbind]. injection E as <-; reflexivity. }
    destruct Q1 as (P4 & e7 & S7 & T7 & N7). destruct (OA _ (str_in "L2" tr) (o_zeroK o) P4) as (q4 & ->). cbn [rbind].
    pose proof (ST "prior"%string "priors"%string (fun n0 => VScal (repeat (o_zeroK o) n0)) h7 e7 S7 T7 N7 eq_refl eq_refl) as Q1.
    destruct (init_array h7 sf "prior" _ _) as [h8|x]; cbn [rbind] in E; [discriminate|].
    destruct Q1 as (-> & Q1 & Q2). rewrite (OR _ _ (o_zeroK o) Q1 Q2). cbn [rbind]. injection E as <-; reflexivity.
Qed.
Print Assumptions C44_construction.

(** After construction and any further session, the tracking arrays are exactly
    those of the known names in [track], with nsamples rows; other attributes
    keep their values; acceptance_trace and deltas_trace exist only if PxMALA was
    run, and otherwise delta is still the parameter's. *)
Theorem C44_arrays_after_session : forall V D K P G I X zK zD zV mko (w : pyworld V D K P G X) (acts : list (action V D K P I X))
    f p lp lmda delta mu s n b g cx v tr h' self,
  hget (py_heap w) lp = Some (params_dict lmda (VStep delta) mu s n b g cx v tr) ->
  PxMCMC_init zK zD zV (py_heap w) f p lp = Ok (h', self) ->
  let w1 := mkPy h' (py_rng w) (py_out w) in
  exists e, hget (py_heap (session zK zD zV mko w1 acts)) self = Some e /\ tracked_arrays e tr (Z.to_nat n) /\
    (forall a, ~ In a run_attrs -> dget e a = 
        match dget (params_dict lmda (VStep delta) mu s n b g cx v tr) a with
        | Some x => Some x
        | None => if String.eqb a "forward" then Some f else if String.eqb a "prior" then Some p else None
        end) /\
    (never_pxmala self acts -> dget e "acceptance_trace" = None /\ dget e "deltas_trace" = None /\ dget e "delta" = Some (VStep delta)).
Proof.
  intros V D K P G I X zK zD zV mko w acts f p lp lmda delta mu s n b g cx v tr h' self Hd E w1.
  destruct (PxMCMC_init_object _ _ _ _ _ _ _ _ _ _ _ _ _ _ _ _ _ _ _ Hd E) as (Hn & e & He & G0).
  assert (T : tracked_arrays e tr (Z.to_nat n)).
  { unfold tracked_arrays, array_attr. rewrite !G0. cbn [String.eqb Ascii.eqb Bool.eqb]. rewrite !andb_false_r, !andb_true_r.
    repeat match goal with |- _ /\ _ => split end.
    - destruct (str_in "logposterior" tr); [eexists; split; [reflexivity|apply repeat_length]|reflexivity].
    - destruct (str_in "L2" tr); [eexists; split; [reflexivity|apply repeat_length]|reflexivity].
    - destruct (str_in "prior" tr); [eexists; split; [reflexivity|apply repeat_length]|reflexivity].
    - destruct (str_in "predictions" tr); [eexists; split; [reflexivity|apply repeat_length]|reflexivity].
    - destruct (str_in "chain" tr); [eexists; split; [reflexivity|apply repeat_length]|reflexivity]. }
  destruct (session_object zK zD zV mko acts w1 self e tr (Z.to_nat n) He T) as (e' & He' & T' & U). exists e'.
  split; [exact He'|]. split; [exact T'|]. split.
  - intros a Ha. rewrite U by exact Ha. rewrite G0. unfold run_attrs in Ha. cbn [In] in Ha.
    repeat match goal with |- context [String.eqb a ?y] => destruct (String.eqb_spec a y) as [->|]; [first [exfalso; tauto|rewrite ?andb_false_r; reflexivity]|] end.
    rewrite !andb_false_r. reflexivity.
  - intros NP. assert (A1 : dget e "acceptance_trace" = None) by (rewrite G0; cbn [String.eqb Ascii.eqb Bool.eqb]; rewrite !andb_false_r; reflexivity).
    assert (A2 : dget e "deltas_trace" = None) by (rewrite G0; cbn [String.eqb Ascii.eqb Bool.eqb]; rewrite !andb_false_r; reflexivity).
    destruct (session_traces zK zD zV mko acts w1 self e tr _ NP He T A1 A2) as (e2 & B1 & B2 & B3 & B4).
    assert (e2 = e') by congruence. subst e2. split; [exact B2|]. split; [exact B3|]. rewrite B4, G0.
    cbn [String.eqb Ascii.eqb Bool.eqb]. rewrite !andb_false_r. reflexivity.
Qed.
Print Assumptions C44_arrays_after_session.

(** A run touches no object but the sampler (two samplers made from one params
    object do not see each other). *)
Theorem C44_run_touches_self_only : forall V D K P G I X (mko : dict (pyval V D K P X) -> ops V D K P G I) w l k fuel start l',
  l' <> l -> hget (py_heap (fst (run_sampler mko w l k fuel start))) l' = hget (py_heap w) l'.
Proof. intros. apply run_frame; assumption. Qed.
Print Assumptions C44_run_touches_self_only.

(** Running PxMALA creates the two traces; they stay. *)
Theorem C44_pxmala_traces : forall V D K P G I X (mko : dict (pyval V D K P X) -> ops V D K P G I) w l tune fuel start e prm s,
  hget (py_heap w) l = Some e -> read_params e = Ok prm -> read_inst e (py_out w) = Ok s ->
  exists e' a ds, hget (py_heap (fst (run_sampler mko w l (KPxmala tune) fuel start))) l = Some e' /\
    dget e' "acceptance_trace" = Some (VAcc a) /\ dget e' "deltas_trace" = Some (VDeltas ds).
Proof.
  intros V D K P G I X mko w l tune fuel start e prm s He Hp Hs. unfold run_sampler. rewrite He, Hp, Hs.
  destruct (run_traces_exist (KPxmala tune) (mko e) prm fuel start (mkWorld s (py_rng w))) as (_ & Q). destruct (Q tune eq_refl) as (Q1 & Q2).
  destruct (run_kind _ _ _ _ _ _) as [w' r]. cbn [fst py_heap w_inst] in *.
  destruct (i_acc (w_inst w')) as [a|] eqn:E1; [|congruence]. destruct (i_deltas (w_inst w')) as [ds|] eqn:E2; [|congruence].
  eexists. exists a, ds. split; [unfold hget in *; rewrite nth_error_upd by (apply nth_error_Some; congruence); rewrite Nat.eqb_refl; reflexivity|].
  rewrite !dget_write. cbn [String.eqb Ascii.eqb Bool.eqb]. rewrite E1, E2. auto.
Qed.
Print Assumptions C44_pxmala_traces.

(** a session: params object at 0, two samplers from it, PxMALA with tuning on
    the first, then MYULA on the second; then the first is saved *)
Definition demo_heap : heap Z Z Z Z unit :=
  [params_dict (VOther tt) (VStep 1) (VOther tt) (VOther tt) 2 0 1 (VOther tt) 0 ["chain"; "L2"; "nonsense"]%string].
Definition demo_session := session 0 0 0 (fun _ => demo) (mkPy demo_heap 3 [])
  [ANew (VOther tt) (VOther tt) 0; ANew (VOther tt) (VOther tt) 0; ARun 1 (KPxmala true) 50 None; ARun 2 KMyula 50 (Some 4)].
Definition show (v : pyval Z Z Z Z unit) : res (list Z) :=
  match v with
  | VInt z => Ok [z] | VStep p => Ok [p] | VNames l => Ok [Z.of_nat (length l)]
  | VScal l | VPred l | VChain l | VAcc l | VDeltas l => Ok l
  | VOther _ => Ok []
  end.
Definition demo_saved :=
  save_mcmc (fun _ => Ok tt) (fun _ => show) show (fun _ => None) (py_heap demo_session) 1 0 "out" "run" [("extra"%string, VInt 7); ("mu"%string, VInt 5)].
Definition attr_of (l : nat) (k : string) : res (list Z) := let* v := getattr (py_heap demo_session) l k in show v.

(** the first sampler's own step size was tuned away from 1; the params object,
    the second sampler and the saved attribute still have 1 *)
Example C44_case_session :
  nth_error (py_heap demo_session) 0 = Some (nth 0 demo_heap []) /\
  attr_of 0 "delta" = Ok [1] /\ attr_of 2 "delta" = Ok [1] /\
  (exists d, attr_of 1 "delta" = Ok [d] /\ d <> 1) /\
  hasattr (py_heap demo_session) 1 "acceptance_trace" = true /\ hasattr (py_heap demo_session) 2 "acceptance_trace" = false /\
  hasattr (py_heap demo_session) 1 "logPi" = false /\ hasattr (py_heap demo_session) 2 "L2s" = true.
Proof. vm_compute. repeat match goal with |- _ /\ _ => split end; try reflexivity. eexists. split; [reflexivity|discriminate]. Qed.
Example C18_case :
  exists f, fst demo_saved "out/run.hdf5"%string = Some f /\ snd demo_saved = Ok tt /\ fst demo_saved "out/other.hdf5"%string = None /\
    dkeys (h5_datasets f) = ["chain"; "L2s"; "acceptances"; "deltas"]%string /\
    dget (h5_attrs f) "delta" = Some [1] /\ dget (h5_attrs f) "mu" = Some [5] /\ dget (h5_attrs f) "extra" = Some [7] /\
    dget (h5_attrs f) "nsamples" = Some [2].
Proof. vm_compute. eexists. repeat match goal with |- _ /\ _ => split end; reflexivity. Qed.
