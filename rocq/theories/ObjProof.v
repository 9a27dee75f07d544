(** Facts about attribute dictionaries, the heap, the samplers' frame, and
    save_mcmc. *)
From Coq Require Import List ZArith Lia Bool String.
From Verif Require Import PyBase PyBaseFacts Sampler Objects.
Import ListNotations.
Open Scope Z_scope.
Notation length := List.length.
Notation append := String.append.

(** ** dictionaries *)
Section D.
Context {A : Type}.
Lemma dget_dset : forall (d : dict A) k v k', dget (dset d k v) k' = if String.eqb k' k then Some v else dget d k'.
Proof.
  induction d as [|[a x] d IH]; intros k v k'; cbn [dset dget]; [reflexivity|].
  destruct (String.eqb_spec k a) as [->|N]; cbn [dget].
  - destruct (String.eqb_spec k' a); reflexivity.
  - destruct (String.eqb_spec k' a) as [->|]; [|apply IH]. destruct (String.eqb_spec a k); [congruence|reflexivity].
Qed.
Lemma dkeys_dset : forall (d : dict A) k v, dkeys (dset d k v) = if str_in k (dkeys d) then dkeys d else dkeys d ++ [k].
Proof.
  unfold dkeys. induction d as [|[a x] d IH]; intros k v; [reflexivity|]. cbn [dset map fst str_in existsb].
  unfold str_in in *. cbn [existsb]. destruct (String.eqb_spec k a) as [->|N]; cbn [map fst orb]; [reflexivity|].
  rewrite IH. destruct (existsb _ _); reflexivity.
Qed.
Lemma str_in_In : forall k l, str_in k l = true <-> In k l.
Proof.
  intros k l. unfold str_in. rewrite existsb_exists. split.
  - intros (x & H & E). apply String.eqb_eq in E. subst; auto.
  - intros H. exists k. split; [auto|apply String.eqb_refl].
Qed.
Lemma dget_None : forall (d : dict A) k, dget d k = None <-> ~ In k (dkeys d).
Proof.
  induction d as [|[a x] d IH]; intros k; cbn; [tauto|]. destruct (String.eqb_spec k a) as [->|N].
  - split; [discriminate|intros H; exfalso; auto].
  - rewrite IH. split; [intros H [E|E]; [congruence|auto]|auto].
Qed.
Lemma NoDup_app_single : forall (l : list string) k, NoDup l -> ~ In k l -> NoDup (l ++ [k]).
Proof.
  induction l as [|a l IH]; intros k H N; cbn; [constructor; auto|]. inversion H as [|? ? H1 H2]; subst. constructor.
  - intros Q. apply in_app_or in Q. destruct Q as [Q|[Q|[]]]; [auto|]. subst. apply N. left; auto.
  - apply IH; auto. intros Q. apply N. right; auto.
Qed.
Lemma NoDup_dset : forall (d : dict A) k v, NoDup (dkeys d) -> NoDup (dkeys (dset d k v)).
Proof.
  intros d k v H. rewrite dkeys_dset. destruct (str_in k (dkeys d)) eqn:E; [auto|].
  assert (N : ~ In k (dkeys d)) by (intros Q; apply str_in_In in Q; congruence).
  apply NoDup_app_single; auto.
Qed.
End D.

(** ** the heap *)
Section H.
Context {V D K P G I X : Type}.
Notation pyval := (pyval V D K P X).
Notation heap := (heap V D K P X).

Lemma nth_error_upd : forall {A} (l : list A) i x j, (i < length l)%nat ->
  nth_error (upd l i x) j = if Nat.eqb j i then Some x else nth_error l j.
Proof.
  induction l as [|a l IH]; intros [|i] x [|j] H; cbn in *; try lia; try reflexivity. apply IH. lia.
Qed.
Lemma hget_setattr : forall (h : heap) l k v l' d, hget h l = Some d ->
  hget (setattr h l k v) l' = if Nat.eqb l' l then Some (dset d k v) else hget h l'.
Proof.
  intros h l k v l' d H. unfold setattr. rewrite H. unfold hget in *. apply nth_error_upd. apply nth_error_Some. congruence.
Qed.

Lemma copy_attrs_fold : forall ks (h : heap) lp self d e, lp <> self -> hget h lp = Some d -> hget h self = Some e ->
  (forall k, In k ks -> In k (dkeys d)) ->
  let h' := fold_left (copy_attr lp self) ks h in
  (forall l, l <> self -> hget h' l = hget h l) /\
  exists e', hget h' self = Some e' /\ (forall k, dget e' k = if str_in k ks then dget d k else dget e k).
Proof.
  induction ks as [|k ks IH]; intros h lp self d e N Hd He Hk h'.
  - split; [reflexivity|]. exists e. auto.
  - unfold h'. cbn [fold_left]. assert (Q : exists v, dget d k = Some v).
    { destruct (dget d k) eqn:E; [eauto|]. apply dget_None in E. exfalso. apply E, Hk. left; auto. }
    destruct Q as (v & Ev). assert (E1 : copy_attr lp self h k = setattr h self k v) by (unfold copy_attr, getattr; rewrite Hd, Ev; reflexivity).
    rewrite E1. assert (F := fun l' => hget_setattr h self k v l' e He).
    destruct (IH (setattr h self k v) lp self d (dset e k v) N) as (A & e' & B & C).
    + rewrite F. rewrite (proj2 (Nat.eqb_neq _ _) N). exact Hd.
    + rewrite F, Nat.eqb_refl. reflexivity.
    + intros q Hq. apply Hk. right; auto.
    + split.
      * intros l Hl. rewrite A by auto. rewrite F. rewrite (proj2 (Nat.eqb_neq _ _) Hl). reflexivity.
      * exists e'. split; [exact B|]. intros q. rewrite C, dget_dset. unfold str_in. cbn [existsb].
        destruct (String.eqb_spec q k) as [->|]; cbn [orb]; [|reflexivity].
        destruct (existsb _ ks); auto.
Qed.

Lemma init_array_spec : forall (h h' : heap) self e name attr mk tr n, hget h self = Some e ->
  dget e "track" = Some (VNames tr) -> dget e "nsamples" = Some (VInt n) ->
  init_array h self name attr mk = Ok h' ->
  (forall l, l <> self -> hget h' l = hget h l) /\
  (str_in name tr = true -> 0 <= n) /\
  exists e', hget h' self = Some e' /\
    forall k, dget e' k = if (str_in name tr && String.eqb k attr)%bool then Some (mk (Z.to_nat n)) else dget e k.
Proof.
  intros h h' self e name attr mk tr n He Et En E. unfold init_array, getattr in E. rewrite He, Et in E. cbn [rbind as_names] in E.
  destruct (str_in name tr) eqn:S.
  - rewrite En in E. cbn [rbind as_int] in E. destruct (Z.ltb_spec n 0); [discriminate|]. injection E as <-.
    split; [|split; [auto|]].
    + intros l Hl. rewrite (hget_setattr h self _ _ l e He). rewrite (proj2 (Nat.eqb_neq _ _) Hl). reflexivity.
    + eexists. rewrite (hget_setattr h self _ _ self e He), Nat.eqb_refl. split; [reflexivity|].
      intros k. rewrite dget_dset. cbn [andb]. reflexivity.
  - injection E as <-. split; [auto|]. split; [discriminate|]. exists e. split; [auto|]. intros k. reflexivity.
Qed.
Lemma init_array_ok : forall (h : heap) self e name attr mk tr n, hget h self = Some e ->
  dget e "track" = Some (VNames tr) -> dget e "nsamples" = Some (VInt n) -> 0 <= n ->
  exists h', init_array h self name attr mk = Ok h'.
Proof.
  intros h self e name attr mk tr n He Et En Hn. unfold init_array, getattr. rewrite He, Et. cbn [rbind as_names].
  destruct (str_in name tr); [|eauto]. rewrite En. cbn [rbind as_int]. destruct (Z.ltb_spec n 0); [lia|eauto].
Qed.

Lemma init_array_frame : forall (h h' : heap) self name attr mk, init_array h self name attr mk = Ok h' ->
  forall l, l <> self -> hget h' l = hget h l.
Proof.
  intros h h' self name attr mk E l Hl. unfold init_array, getattr in E. destruct (hget h self) as [e|] eqn:He; [|discriminate].
  destruct (dget e "track") as [tv|]; [|discriminate]. cbn [rbind] in E. destruct (as_names tv) as [tr|]; [|discriminate]. cbn [rbind] in E.
  destruct (str_in name tr); [|injection E as <-; reflexivity].
  destruct (dget e "nsamples") as [nv|]; [|discriminate]. cbn [rbind] in E. destruct (as_int nv) as [n|]; [|discriminate]. cbn [rbind] in E.
  destruct (n <? 0); [discriminate|]. injection E as <-.
  rewrite (hget_setattr h self _ _ l e He). rewrite (proj2 (Nat.eqb_neq _ _) Hl). reflexivity.
Qed.

(** PxMCMC.__init__ touches no existing object *)
Lemma PxMCMC_init_frame : forall zK zD zV (h h' : heap) f p lp self, PxMCMC_init zK zD zV h f p lp = Ok (h', self) ->
  self = length h /\ forall l, (l < length h)%nat -> hget h' l = hget h l.
Proof.
  intros zK zD zV h h' f p lp self E. unfold PxMCMC_init in E. destruct (hget h lp) as [d|] eqn:Hd; [|discriminate].
  set (s := length h) in *. set (h0 := h ++ [[]]) in *.
  assert (B0 : forall l, (l < s)%nat -> hget h0 l = hget h l) by (intros l Hl; unfold hget, h0; apply nth_error_app1; exact Hl).
  assert (S0 : hget h0 s = Some []) by (unfold hget, h0, s; rewrite nth_error_app2, Nat.sub_diag by lia; reflexivity).
  set (h1 := setattr h0 s "forward" f) in *. assert (F1 := fun l => hget_setattr h0 s "forward" f l _ S0). fold h1 in F1.
  assert (S1 : exists e, hget h1 s = Some e) by (rewrite F1, Nat.eqb_refl; eauto). destruct S1 as (e1 & S1).
  set (h2 := setattr h1 s "prior" p) in *. assert (F2 := fun l => hget_setattr h1 s "prior" p l _ S1). fold h2 in F2.
  assert (Lp : (lp < s)%nat) by (apply nth_error_Some; unfold hget in Hd; congruence).
  assert (D2 : hget h2 lp = Some d).
  { rewrite F2, F1. rewrite (proj2 (Nat.eqb_neq _ _)) by lia. rewrite B0 by auto. exact Hd. }
  assert (S2 : exists e, hget h2 s = Some e) by (rewrite F2, Nat.eqb_refl; eauto). destruct S2 as (e2 & S2).
  assert (C3 : forall l, l <> s -> hget (copy_attrs h2 lp s) l = hget h2 l).
  { unfold copy_attrs. rewrite D2. apply (copy_attrs_fold (dkeys d) h2 lp s d e2); auto. lia. }
  set (h3 := copy_attrs h2 lp s) in *. clearbody h3.
  unfold initialise_tracking_arrays in E.
  destruct (init_array h3 s "logposterior" _ _) as [h4|] eqn:E4; cbn [rbind] in E; [|discriminate].
  destruct (init_array h4 s "predictions" _ _) as [h5|] eqn:E5; cbn [rbind] in E; [|discriminate].
  destruct (init_array h5 s "chain" _ _) as [h6|] eqn:E6; cbn [rbind] in E; [|discriminate].
  destruct (init_array h6 s "L2" _ _) as [h7|] eqn:E7; cbn [rbind] in E; [|discriminate].
  destruct (init_array h7 s "prior" _ _) as [h8|] eqn:E8; cbn [rbind] in E; [|discriminate].
  injection E as <- <-. split; [reflexivity|]. intros l Hl.
  rewrite (init_array_frame _ _ _ _ _ _ E8), (init_array_frame _ _ _ _ _ _ E7), (init_array_frame _ _ _ _ _ _ E6),
          (init_array_frame _ _ _ _ _ _ E5), (init_array_frame _ _ _ _ _ _ E4), C3 by lia.
  rewrite F2, F1. rewrite (proj2 (Nat.eqb_neq _ _)) by lia. auto.
Qed.

(** the new object, for a params object made by PxMCMCParams *)
Lemma PxMCMC_init_object : forall zK zD zV (h h' : heap) f p lp self lmda delta mu sv n b g cx v tr,
  hget h lp = Some (params_dict lmda delta mu sv n b g cx v tr) ->
  PxMCMC_init zK zD zV h f p lp = Ok (h', self) ->
  (str_in "logposterior" tr || str_in "predictions" tr || str_in "chain" tr || str_in "L2" tr || str_in "prior" tr = true -> 0 <= n) /\
  exists e, hget h' self = Some e /\ forall k, dget e k =
    if (str_in "logposterior" tr && String.eqb k "logPi")%bool then Some (VScal (repeat zK (Z.to_nat n))) else
    if (str_in "predictions" tr && String.eqb k "preds")%bool then Some (VPred (repeat zD (Z.to_nat n))) else
    if (str_in "chain" tr && String.eqb k "chain")%bool then Some (VChain (repeat zV (Z.to_nat n))) else
    if (str_in "L2" tr && String.eqb k "L2s")%bool then Some (VScal (repeat zK (Z.to_nat n))) else
    if (str_in "prior" tr && String.eqb k "priors")%bool then Some (VScal (repeat zK (Z.to_nat n))) else
    match dget (params_dict lmda delta mu sv n b g cx v tr) k with
    | Some x => Some x
    | None => if String.eqb k "forward" then Some f else if String.eqb k "prior" then Some p else None
    end.
Proof.
  intros zK zD zV h h' f p lp self lmda delta mu sv n b g cx v tr Hd E. unfold PxMCMC_init in E. rewrite Hd in E.
  set (d := params_dict lmda delta mu sv n b g cx v tr) in *.
  set (s := length h) in *. set (h0 := h ++ [[]]) in *.
  assert (S0 : hget h0 s = Some []) by (unfold hget, h0, s; rewrite nth_error_app2, Nat.sub_diag by lia; reflexivity).
  set (h1 := setattr h0 s "forward" f) in *. assert (F1 := fun l => hget_setattr h0 s "forward" f l _ S0). fold h1 in F1.
  assert (S1 : hget h1 s = Some (dset [] "forward" f)) by (rewrite F1, Nat.eqb_refl; auto).
  set (h2 := setattr h1 s "prior" p) in *. assert (F2 := fun l => hget_setattr h1 s "prior" p l _ S1). fold h2 in F2.
  assert (Lp : (lp < s)%nat) by (apply nth_error_Some; unfold hget in Hd; congruence).
  assert (D2 : hget h2 lp = Some d).
  { rewrite F2, F1. rewrite (proj2 (Nat.eqb_neq _ _)) by lia. unfold hget, h0. rewrite nth_error_app1 by exact Lp. exact Hd. }
  assert (S2 : hget h2 s = Some (dset (dset [] "forward" f) "prior" p)) by (rewrite F2, Nat.eqb_refl; auto).
  assert (C3 : exists e, hget (copy_attrs h2 lp s) s = Some e /\
     forall k, dget e k = if str_in k (dkeys d) then dget d k else dget (dset (dset [] "forward" f) "prior" p) k).
  { unfold copy_attrs. rewrite D2. apply (copy_attrs_fold (dkeys d) h2 lp s d); auto. lia. }
  destruct C3 as (e3 & S3 & G3). set (h3 := copy_attrs h2 lp s) in *. clearbody h3.
  unfold initialise_tracking_arrays in E.
  destruct (init_array h3 s "logposterior" _ _) as [h4|] eqn:E4; cbn [rbind] in E; [|discriminate].
  destruct (init_array h4 s "predictions" _ _) as [h5|] eqn:E5; cbn [rbind] in E; [|discriminate].
  destruct (init_array h5 s "chain" _ _) as [h6|] eqn:E6; cbn [rbind] in E; [|discriminate].
  destruct (init_array h6 s "L2" _ _) as [h7|] eqn:E7; cbn [rbind] in E; [|discriminate].
  destruct (init_array h7 s "prior" _ _) as [h8|] eqn:E8; cbn [rbind] in E; [|discriminate].
  injection E as <- <-.
  assert (T3 : dget e3 "track" = Some (VNames tr)) by (rewrite G3; reflexivity).
  assert (N3 : dget e3 "nsamples" = Some (VInt n)) by (rewrite G3; reflexivity).
  destruct (init_array_spec _ _ _ _ _ _ _ tr n S3 T3 N3 E4) as (_ & P4 & e4 & S4 & G4).
  assert (T4 : dget e4 "track" = Some (VNames tr)) by (rewrite G4, andb_false_r; exact T3).
  assert (N4 : dget e4 "nsamples" = Some (VInt n)) by (rewrite G4, andb_false_r; exact N3).
  destruct (init_array_spec _ _ _ _ _ _ _ tr n S4 T4 N4 E5) as (_ & P5 & e5 & S5 & G5).
  assert (T5 : dget e5 "track" = Some (VNames tr)) by (rewrite G5, andb_false_r; exact T4).
  assert (N5 : dget e5 "nsamples" = Some (VInt n)) by (rewrite G5, andb_false_r; exact N4).
  destruct (init_array_spec _ _ _ _ _ _ _ tr n S5 T5 N5 E6) as (_ & P6 & e6 & S6 & G6).
  assert (T6 : dget e6 "track" = Some (VNames tr)) by (rewrite G6, andb_false_r; exact T5).
  assert (N6 : dget e6 "nsamples" = Some (VInt n)) by (rewrite G6, andb_false_r; exact N5).
  destruct (init_array_spec _ _ _ _ _ _ _ tr n S6 T6 N6 E7) as (_ & P7 & e7 & S7 & G7).
  assert (T7 : dget e7 "track" = Some (VNames tr)) by (rewrite G7, andb_false_r; exact T6).
  assert (N7 : dget e7 "nsamples" = Some (VInt n)) by (rewrite G7, andb_false_r; exact N6).
  destruct (init_array_spec _ _ _ _ _ _ _ tr n S7 T7 N7 E8) as (_ & P8 & e8 & S8 & G8).
  split.
  { intros Q. repeat (apply orb_prop in Q; destruct Q as [Q|Q]); auto. }
  exists e8. split; [exact S8|]. intros k. rewrite G8, G7, G6, G5, G4, G3.
  assert (DD : (if str_in k (dkeys d) then dget d k else dget (dset (dset [] "forward" f) "prior" p) k) =
     match dget d k with Some x => Some x | None => if String.eqb k "forward" then Some f else if String.eqb k "prior" then Some p else None end).
  { destruct (str_in k (dkeys d)) eqn:SI.
    - apply str_in_In in SI. destruct (dget d k) eqn:Q; [reflexivity|]. apply dget_None in Q. contradiction.
    - assert (Q : dget d k = None) by (apply dget_None; intros Q; apply str_in_In in Q; congruence). rewrite Q, !dget_dset. cbn [dget].
      destruct (String.eqb_spec k "prior") as [->|]; [reflexivity|]. destruct (String.eqb k "forward"); reflexivity. }
  rewrite DD. clear.
  destruct (String.eqb_spec k "logPi") as [->|]; [cbn; rewrite ?andb_false_r; cbn; reflexivity|].
  destruct (String.eqb_spec k "preds") as [->|]; [cbn; rewrite ?andb_false_r; cbn; reflexivity|].
  destruct (String.eqb_spec k "chain") as [->|]; [cbn; rewrite ?andb_false_r; cbn; reflexivity|].
  destruct (String.eqb_spec k "L2s") as [->|]; [cbn; rewrite ?andb_false_r; cbn; reflexivity|].
  rewrite ?andb_false_r. reflexivity.
Qed.
End H.

(** ** what the loops leave alone *)
Section Frame.
Context {V D K P G I : Type}.
Notation inst := (inst V D K P).
Notation world := (world V D K P G).
Notation M := (@M V D K P G).

Definition olen {A} (a : option (list A)) : option nat := option_map (@length A) a.
(** same arrays, same sizes *)
Definition same_shape (s s' : inst) : Prop :=
  olen (i_logPi s') = olen (i_logPi s) /\ olen (i_L2s s') = olen (i_L2s s) /\ olen (i_priors s') = olen (i_priors s) /\
  olen (i_preds s') = olen (i_preds s) /\ olen (i_chain s') = olen (i_chain s).
Definition same_traces (s s' : inst) : Prop := i_acc s' = i_acc s /\ i_deltas s' = i_deltas s /\ i_delta s' = i_delta s.
Definition traces_exist (s s' : inst) : Prop :=
  (i_acc s <> None -> i_acc s' <> None) /\ (i_deltas s <> None -> i_deltas s' <> None).

Section Keeps.
Variable R : inst -> inst -> Prop.
Hypothesis R_refl : forall s, R s s.
Hypothesis R_trans : forall a b c, R a b -> R b c -> R a c.
Definition keeps {A} (m : M A) : Prop := forall w, R (w_inst w) (w_inst (fst (m w))).

Lemma keeps_ret {A} (a : A) : keeps (ret a). Proof. intros w. apply R_refl. Qed.
Lemma keeps_throw {A} e : keeps (@throw V D K P G A e). Proof. intros w. apply R_refl. Qed.
Lemma keeps_no_fuel {A} : keeps (@no_fuel V D K P G A). Proof. intros w. apply R_refl. Qed.
Lemma keeps_lift {A} (r : res A) : keeps (lift r). Proof. destruct r; [apply keeps_ret|apply keeps_throw]. Qed.
Lemma keeps_with_rng {A} (f : G -> res A * G) : keeps (with_rng f).
Proof. intros w. unfold with_rng. destruct (f (w_rng w)) as [r g']. apply (keeps_lift r (mkWorld (w_inst w) g')). Qed.
Lemma keeps_bind {A B} (m : M A) (k : A -> M B) : keeps m -> (forall a, keeps (k a)) -> keeps (bind m k).
Proof.
  intros H1 H2 w. unfold bind. specialize (H1 w). destruct (m w) as [w' [a|e|]]; cbn [fst] in *; auto.
  eapply R_trans; [exact H1|apply H2].
Qed.
Lemma keeps_get {A} (k : inst -> M A) :
  (forall w, R (w_inst w) (w_inst (fst (k (w_inst w) w)))) -> keeps (bind get_inst k).
Proof. intros H w. unfold bind, get_inst. apply H. Qed.
Lemma keeps_get' {A} (k : inst -> M A) : (forall s, keeps (k s)) -> keeps (bind get_inst k).
Proof. intros H. apply keeps_get. intros w. apply H. Qed.
Lemma keeps_read {A} (get : inst -> option (list A)) k : keeps (read_attr get k).
Proof. apply keeps_get'. intros s. destruct (get s); [apply keeps_lift|apply keeps_throw]. Qed.
Lemma keeps_if {A} (b : bool) (m m' : M A) : keeps m -> keeps m' -> keeps (if b then m else m').
Proof. destruct b; auto. Qed.

Hypothesis R_out : forall out s, R s (set_out out s).
Lemma keeps_print e : keeps (print e).
Proof. apply keeps_get. intros w. unfold put_inst. cbn [fst w_inst]. apply R_out. Qed.
Lemma keeps_print_saved j : keeps (print_saved j).
Proof. unfold print_saved. repeat (apply keeps_bind; [apply keeps_read|intros ?]). apply keeps_print. Qed.

Hypothesis R_store : forall s (l l' : list K), length l' = length l -> 
  (i_logPi s = Some l -> R s (set_logPi (Some l') s)) /\ (i_L2s s = Some l -> R s (set_L2s (Some l') s)) /\
  (i_priors s = Some l -> R s (set_priors (Some l') s)).
Hypothesis R_preds : forall s (l l' : list D), length l' = length l -> i_preds s = Some l -> R s (set_preds (Some l') s).
Hypothesis R_chain : forall s (l l' : list V), length l' = length l -> i_chain s = Some l -> R s (set_chain (Some l') s).

Lemma py_setitem_length {A} (l l' : list A) k a : py_setitem l k a = Ok l' -> length l' = length l.
Proof.
  unfold py_setitem. destruct (_ || _)%bool; [discriminate|]. intros E. injection E as <-.
  generalize (Z.to_nat (if k <? 0 then Z.of_nat (length l) + k else k)). clear.
  induction l as [|x l IH]; intros [|n]; cbn; auto.
Qed.
Lemma keeps_store {A} (get : inst -> option (list A)) set j v :
  (forall s l l', length l' = length l -> get s = Some l -> R s (set (Some l') s)) -> keeps (store get set j v).
Proof.
  intros H. apply keeps_get. intros w. destruct (get (w_inst w)) as [l|] eqn:E; [|apply R_refl].
  unfold bind. destruct v as [a|e]; cbn [lift ret throw]; [|apply R_refl].
  destruct (py_setitem l j a) as [l'|] eqn:E'; cbn [lift ret throw]; [|apply R_refl].
  unfold put_inst. cbn [fst w_inst]. apply (H _ l l'); auto. eapply py_setitem_length; eauto.
Qed.
Variable o : ops V D K P G I.
Variable prm : params.
Lemma keeps_tracking j X preds a b c : keeps (tracking o j X preds a b c).
Proof.
  unfold tracking. repeat (apply keeps_bind; [|intros _]); apply keeps_store; intros s l l' Hl E.
  - apply (R_store s l l' Hl); auto.
  - apply (R_store s l l' Hl); auto.
  - apply (R_store s l l' Hl); auto.
  - apply (R_preds s l l' Hl); auto.
  - apply (R_chain s l l' Hl); auto.
Qed.
Lemma keeps_initial start : keeps (initial_sample o start).
Proof. unfold initial_sample. apply keeps_bind; [apply keeps_with_rng|intros X]. apply keeps_bind; [apply keeps_lift|intros d]. apply keeps_ret. Qed.

Ltac kp := repeat first
  [ apply keeps_tracking | apply keeps_print_saved | apply keeps_print | apply keeps_ret | apply keeps_throw | apply keeps_no_fuel
  | apply keeps_lift | apply keeps_with_rng | apply keeps_initial
  | (apply keeps_get'; intros ?) | (apply keeps_bind; [|intros ?]) | apply keeps_if
  | match goal with |- keeps (let '(_, _) := ?x in _) => destruct x end ].
Lemma keeps_myula_loop : forall fuel i j X preds, keeps (myula_loop o prm fuel i j X preds).
Proof.
  induction fuel as [|f IH]; intros i j X preds; cbn [myula_loop]; apply keeps_if; try apply keeps_print; [apply keeps_no_fuel|].
  apply keeps_bind; [|intros [[j' X'] p']; apply IH]. unfold myula_body. kp.
Qed.
Lemma keeps_myula_run : forall fuel start, keeps (myula_run o prm fuel start).
Proof. intros. unfold myula_run. apply keeps_bind; [apply keeps_initial|intros [X p]]. apply keeps_myula_loop. Qed.
Lemma keeps_skrock_loop : forall fuel i j X preds, keeps (skrock_loop o prm fuel i j X preds).
Proof.
  induction fuel as [|f IH]; intros i j X preds; cbn [skrock_loop]; apply keeps_if; try apply keeps_print; [apply keeps_no_fuel|].
  apply keeps_bind; [|intros [[j' X'] p']; apply IH]. unfold skrock_body. kp.
Qed.
Lemma keeps_skrock_run : forall fuel start, keeps (skrock_run o prm fuel start).
Proof. intros. unfold skrock_run. apply keeps_bind; [apply keeps_initial|intros [X p]]. apply keeps_skrock_loop. Qed.

Hypothesis R_acc : forall s l, R s (set_acc (Some l) s).
Hypothesis R_deltas : forall s l, R s (set_deltas (Some l) s).
Hypothesis R_delta : forall s d, R s (set_delta d s).
Lemma keeps_append_acc a : keeps (append_acc a).
Proof. apply keeps_get. intros w. destruct (i_acc (w_inst w)); [apply R_acc|apply R_refl]. Qed.
Lemma keeps_append_delta : keeps append_delta.
Proof. apply keeps_get. intros w. destruct (i_deltas (w_inst w)); [apply R_deltas|apply R_refl]. Qed.
Lemma keeps_tune i : keeps (tune_delta o i).
Proof. unfold tune_delta. apply keeps_bind; [apply keeps_read|intros a]. apply keeps_get. intros w. apply R_delta. Qed.
Lemma keeps_pxmala_loop : forall tune fuel i j c, keeps (pxmala_loop o prm tune fuel i j c).
Proof.
  induction fuel as [|f IH]; intros i j c; cbn [pxmala_loop]; apply keeps_if; try apply keeps_print; [apply keeps_no_fuel|].
  apply keeps_bind; [|intros [j' c']; apply IH]. unfold pxmala_body.
  repeat first
  [ apply keeps_append_acc | apply keeps_tune | apply keeps_append_delta
  | apply keeps_tracking | apply keeps_print_saved | apply keeps_print | apply keeps_ret | apply keeps_throw | apply keeps_no_fuel
  | apply keeps_lift | apply keeps_with_rng
  | (apply keeps_get'; intros ?) | (apply keeps_bind; [|intros ?]) | apply keeps_if
  | match goal with |- keeps (let '(_, _) := ?x in _) => destruct x end ].
Qed.
Lemma keeps_pxmala_run : forall tune fuel start, keeps (pxmala_run o prm tune fuel start).
Proof.
  intros. unfold pxmala_run. apply keeps_get. intros w. unfold bind at 1. unfold put_inst at 1.
  eapply R_trans; [apply (R_acc (w_inst w) [])|].
  set (w1 := mkWorld (set_acc (Some []) (w_inst w)) (w_rng w)). change (set_acc (Some []) (w_inst w)) with (w_inst w1).
  unfold bind at 1, get_inst at 1. unfold bind at 1. unfold put_inst at 1.
  eapply R_trans; [apply (R_deltas (w_inst w1) [i_delta (w_inst w1)])|].
  set (w2 := mkWorld (set_deltas _ (w_inst w1)) (w_rng w1)).
  change (set_deltas (Some [i_delta (w_inst w1)]) (w_inst w1)) with (w_inst w2).
  match goal with |- R (w_inst w2) (w_inst (fst (?m w2))) => cut (keeps m); [intros Q; apply Q|] end.
  apply keeps_bind; [apply keeps_initial|intros [X p]]. kp. apply keeps_pxmala_loop.
Qed.
End Keeps.

Lemma same_shape_refl s : same_shape s s. Proof. repeat split. Qed.
Lemma same_shape_trans a b c : same_shape a b -> same_shape b c -> same_shape a c.
Proof. intros (A1 & A2 & A3 & A4 & A5) (B1 & B2 & B3 & B4 & B5). repeat split; congruence. Qed.
Lemma olen_Some {A} (l l' : list A) : length l' = length l -> olen (Some l') = olen (Some l).
Proof. intros H. cbn. congruence. Qed.

Theorem run_same_shape : forall k (o : ops V D K P G I) prm fuel start w,
  same_shape (w_inst w) (w_inst (fst (run_kind k o prm fuel start w))).
Proof.
  assert (A1 : forall out s, same_shape s (set_out out s)) by (intros; repeat split).
  assert (A2 : forall s (l l' : list K), length l' = length l ->
    (i_logPi s = Some l -> same_shape s (set_logPi (Some l') s)) /\ (i_L2s s = Some l -> same_shape s (set_L2s (Some l') s)) /\
    (i_priors s = Some l -> same_shape s (set_priors (Some l') s))).
  { intros s l l' Hl. repeat split; cbn; auto; rewrite H; cbn; congruence. }
  assert (A3 : forall s (l l' : list D), length l' = length l -> i_preds s = Some l -> same_shape s (set_preds (Some l') s)).
  { intros s l l' Hl H. repeat split. cbn. rewrite H. cbn. congruence. }
  assert (A4 : forall s (l l' : list V), length l' = length l -> i_chain s = Some l -> same_shape s (set_chain (Some l') s)).
  { intros s l l' Hl H. repeat split. cbn. rewrite H. cbn. congruence. }
  intros [|tune|] o prm fuel start w; cbn [run_kind].
  - apply keeps_myula_run; auto using same_shape_refl. apply same_shape_trans.
  - apply keeps_pxmala_run; auto using same_shape_refl; try (intros; repeat split; fail). apply same_shape_trans.
  - apply keeps_skrock_run; auto using same_shape_refl. apply same_shape_trans.
Qed.

Theorem run_same_traces : forall k (o : ops V D K P G I) prm fuel start w, (forall t, k <> KPxmala t) ->
  same_traces (w_inst w) (w_inst (fst (run_kind k o prm fuel start w))).
Proof.
  assert (TR : forall a b c, same_traces a b -> same_traces b c -> same_traces a c)
    by (intros a b c (A1 & A2 & A3) (B1 & B2 & B3); repeat split; congruence).
  intros [|tune|] o prm fuel start w Hk; cbn [run_kind]; [|exfalso; eapply Hk; reflexivity|].
  - apply keeps_myula_run; auto; intros; repeat split.
  - apply keeps_skrock_run; auto; intros; repeat split.
Qed.

Lemma traces_exist_trans a b c : traces_exist a b -> traces_exist b c -> traces_exist a c.
Proof. intros (A1 & A2) (B1 & B2); split; auto. Qed.
Theorem run_traces_exist : forall k (o : ops V D K P G I) prm fuel start w,
  traces_exist (w_inst w) (w_inst (fst (run_kind k o prm fuel start w))) /\
  (forall t, k = KPxmala t -> i_acc (w_inst (fst (run_kind k o prm fuel start w))) <> None /\
                              i_deltas (w_inst (fst (run_kind k o prm fuel start w))) <> None).
Proof.
  intros k o prm fuel start w. 
  destruct k as [|tune|].
  - destruct (run_same_traces KMyula o prm fuel start w) as (A & B & _); [discriminate|]. split; [|discriminate].
    split; [rewrite A|rewrite B]; auto.
  - assert (TE : traces_exist (mkInst None None None None None (Some []) (Some []) (i_delta (w_inst w)) [])
                 (w_inst (fst (run_kind (KPxmala tune) o prm fuel start w)))).
    2:{ destruct TE as (K1 & K2). assert (J1 := K1 ltac:(discriminate)). assert (J2 := K2 ltac:(discriminate)).
        split; [split; auto|]. intros t _. split; auto. }
    assert (R1 : forall s, traces_exist s s) by (intros; split; auto).
    cbn [run_kind]. unfold pxmala_run. unfold bind at 1, get_inst at 1. unfold bind at 1, put_inst at 1.
    unfold bind at 1, get_inst at 1. unfold bind at 1, put_inst at 1. cbn [w_inst w_rng set_acc set_deltas i_acc i_deltas].
    match goal with |- traces_exist _ (w_inst (fst (?m ?w2))) => apply (traces_exist_trans _ (w_inst w2)); [split; discriminate|]; cut (keeps traces_exist m); [intros Q; apply Q|] end.
    apply keeps_bind; auto; [exact traces_exist_trans|apply keeps_initial; auto; exact traces_exist_trans|].
    intros [X p]. apply keeps_bind; auto; [exact traces_exist_trans|apply keeps_lift; auto|intros gr].
    apply keeps_bind; auto; [exact traces_exist_trans|apply keeps_lift; auto|intros pf].
    apply keeps_bind; auto; [exact traces_exist_trans|apply keeps_lift; auto|intros [[a b] c]].
    apply keeps_pxmala_loop; auto; try exact traces_exist_trans; intros; repeat split; cbn; try discriminate; auto.
  - destruct (run_same_traces KSkrock o prm fuel start w) as (A & B & _); [discriminate|]. split; [|discriminate].
    split; [rewrite A|rewrite B]; auto.
Qed.
End Frame.
