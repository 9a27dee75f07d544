(** Lemmas about the building blocks of the sampler loops. *)
From Coq Require Import List ZArith Lia Bool String.
From Verif Require Import PyBase PyBaseFacts Sampler SamplerSpec.
Import ListNotations.
Open Scope Z_scope.

Ltac inv H := inversion H; subst; clear H.

Section Facts.
Context {V D K P G I : Type}.
Variable o : ops V D K P G I.
Notation inst := (inst V D K P).
Notation world := (world V D K P G).
Notation entry := (entry V D K).

Definition upd_arr {B} (k : nat) (v : res B) (old new : option (list B)) : Prop :=
  match old, new with
  | None, None => True
  | Some a, Some a' => exists r, v = Ok r /\ a' = upd a k r
  | _, _ => False
  end.

(** row [k] unchanged or overwritten by something *)
Definition maybe_upd {B} (k : nat) (old new : option (list B)) : Prop :=
  match old, new with
  | None, None => True
  | Some a, Some a' => a' = a \/ exists r, a' = upd a k r
  | _, _ => False
  end.

(** attributes that storing a row never touches *)
Definition same_rest (s s' : inst) : Prop :=
  i_acc s' = i_acc s /\ i_deltas s' = i_deltas s /\ i_delta s' = i_delta s /\ i_out s' = i_out s.

Definition upd_all (k : nat) (x : V) (d : D) (a b c : K) (s s' : inst) : Prop :=
  upd_arr k (Ok (o_rowK o a)) (i_logPi s) (i_logPi s') /\
  upd_arr k (Ok (o_rowK o b)) (i_L2s s) (i_L2s s') /\
  upd_arr k (Ok (o_rowK o c)) (i_priors s) (i_priors s') /\
  upd_arr k (o_rowD o d) (i_preds s) (i_preds s') /\
  upd_arr k (o_rowV o x) (i_chain s) (i_chain s').

Definition maybe_all (k : nat) (s s' : inst) : Prop :=
  maybe_upd k (i_logPi s) (i_logPi s') /\
  maybe_upd k (i_L2s s) (i_L2s s') /\
  maybe_upd k (i_priors s) (i_priors s') /\
  maybe_upd k (i_preds s) (i_preds s') /\
  maybe_upd k (i_chain s) (i_chain s').

Definition same_tracked (s s' : inst) : Prop :=
  i_logPi s' = i_logPi s /\ i_L2s s' = i_L2s s /\ i_priors s' = i_priors s /\
  i_preds s' = i_preds s /\ i_chain s' = i_chain s.

Lemma maybe_upd_refl {B} k (a : option (list B)) : maybe_upd k a a.
Proof. destruct a; simpl; auto. Qed.

Lemma maybe_all_same k s s' : same_tracked s s' -> maybe_all k s s'.
Proof.
  intros (A & B & C & E & F). unfold maybe_all. rewrite A, B, C, E, F.
  repeat split; apply maybe_upd_refl.
Qed.

Lemma upd_arr_maybe {B} k v (old new : option (list B)) : upd_arr k v old new -> maybe_upd k old new.
Proof.
  destruct old, new; simpl; auto. intros (r & _ & H). right. exists r. exact H.
Qed.

Lemma upd_all_maybe k x d a b c s s' : upd_all k x d a b c s s' -> maybe_all k s s'.
Proof.
  intros (H1 & H2 & H3 & H4 & H5).
  repeat split; eapply upd_arr_maybe; eassumption.
Qed.

Lemma store_spec {A} (get : inst -> option (list A)) set j v (w w' : world) out n :
  0 <= j < Z.of_nat n -> len_arr n (get (w_inst w)) ->
  store (G := G) get set j v w = (w', out) ->
  w_rng w' = w_rng w /\
  match get (w_inst w), v with
  | None, _ => out = Ret tt /\ w' = w
  | Some a, Ok r => out = Ret tt /\ w_inst w' = set (Some (upd a (Z.to_nat j) r)) (w_inst w)
  | Some a, Raise e => out = Exn e /\ w' = w
  end.
Proof.
  intros Hj Hl H. unfold store, bind, get_inst in H. simpl in H.
  destruct (get (w_inst w)) as [a|] eqn:E.
  - destruct v as [r|e]; simpl in H.
    + simpl in Hl. rewrite py_setitem_ok in H by lia. simpl in H. inv H. simpl. auto.
    + inv H. auto.
  - inv H. auto.
Qed.

Lemma store_spec_cases {A} (get : inst -> option (list A)) set j v (w w' : world) out n :
  0 <= j < Z.of_nat n -> len_arr n (get (w_inst w)) ->
  (forall x s, get (set x s) = x) ->
  store (G := G) get set j v w = (w', out) ->
  w_rng w' = w_rng w /\
  ((out = Ret tt /\ upd_arr (Z.to_nat j) v (get (w_inst w)) (get (w_inst w')) /\
    (w_inst w' = w_inst w \/ exists l, w_inst w' = set l (w_inst w)))
   \/ (exists e, out = Exn e /\ w' = w)).
Proof.
  intros Hj Hl Hgs H. destruct (store_spec get set j v w w' out n Hj Hl H) as (Hr & Hc).
  split; [exact Hr|].
  destruct (get (w_inst w)) as [a|] eqn:E.
  - destruct v as [r|e].
    + destruct Hc as (-> & Hi). left. split; [reflexivity|]. split.
      * rewrite Hi, Hgs. simpl. exists r. auto.
      * right. eexists. exact Hi.
    + destruct Hc as (-> & ->). right. eauto.
  - destruct Hc as (-> & ->). left. rewrite E. simpl. auto.
Qed.

Lemma tracking_spec j x d a b c (w w' : world) out n :
  0 <= j < Z.of_nat n -> sized (w_inst w) n ->
  tracking o j x d a b c w = (w', out) ->
  w_rng w' = w_rng w /\ same_rest (w_inst w) (w_inst w') /\
  match out with
  | Ret _ => upd_all (Z.to_nat j) x d a b c (w_inst w) (w_inst w')
  | Exn _ => maybe_all (Z.to_nat j) (w_inst w) (w_inst w')
  | NoFuel => False
  end.
Proof.
  intros Hj (S1 & S2 & S3 & S4 & S5) H. unfold tracking in H.
  unfold bind in H at 1.
  destruct (store i_logPi set_logPi j (Ok (o_rowK o a)) w) as [w1 o1] eqn:E1.
  destruct (store_spec_cases i_logPi set_logPi _ _ _ _ _ n Hj S1 (fun _ _ => eq_refl) E1)
    as (R1 & [(-> & U1 & F1)|(e & -> & ->)]).
  2:{ inv H. repeat split; auto; apply maybe_upd_refl. }
  assert (Q1 : i_L2s (w_inst w1) = i_L2s (w_inst w) /\ i_priors (w_inst w1) = i_priors (w_inst w) /\
          i_preds (w_inst w1) = i_preds (w_inst w) /\ i_chain (w_inst w1) = i_chain (w_inst w) /\
          same_rest (w_inst w) (w_inst w1)).
  { destruct F1 as [->|(l & ->)]; repeat split. }
  destruct Q1 as (q11 & q12 & q13 & q14 & q15).
  unfold bind in H at 1.
  destruct (store i_L2s set_L2s j (Ok (o_rowK o b)) w1) as [w2 o2] eqn:E2.
  rewrite <- q11 in S2.
  destruct (store_spec_cases i_L2s set_L2s _ _ _ _ _ n Hj S2 (fun _ _ => eq_refl) E2)
    as (R2 & [(-> & U2 & F2)|(e & -> & ->)]).
  2:{ inv H. split; [congruence|]. split; [exact q15|]. repeat split;
      try (rewrite ?q11, ?q12, ?q13, ?q14; apply maybe_upd_refl). eapply upd_arr_maybe; eauto. }
  assert (Q2 : i_logPi (w_inst w2) = i_logPi (w_inst w1) /\ i_priors (w_inst w2) = i_priors (w_inst w1) /\
          i_preds (w_inst w2) = i_preds (w_inst w1) /\ i_chain (w_inst w2) = i_chain (w_inst w1) /\
          same_rest (w_inst w1) (w_inst w2)).
  { destruct F2 as [->|(l & ->)]; repeat split. }
  destruct Q2 as (q21 & q22 & q23 & q24 & q25).
  unfold bind in H at 1.
  destruct (store i_priors set_priors j (Ok (o_rowK o c)) w2) as [w3 o3] eqn:E3.
  rewrite <- q12, <- q22 in S3.
  destruct (store_spec_cases i_priors set_priors _ _ _ _ _ n Hj S3 (fun _ _ => eq_refl) E3)
    as (R3 & [(-> & U3 & F3)|(e & -> & ->)]).
  2:{ inv H. split; [congruence|].
      split; [unfold same_rest in *; intuition congruence|].
      rewrite q11 in U2. repeat split;
      try (rewrite ?q21, ?q22, ?q23, ?q24, ?q11, ?q12, ?q13, ?q14; apply maybe_upd_refl);
      rewrite ?q21; eapply upd_arr_maybe; eauto. }
  assert (Q3 : i_logPi (w_inst w3) = i_logPi (w_inst w2) /\ i_L2s (w_inst w3) = i_L2s (w_inst w2) /\
          i_preds (w_inst w3) = i_preds (w_inst w2) /\ i_chain (w_inst w3) = i_chain (w_inst w2) /\
          same_rest (w_inst w2) (w_inst w3)).
  { destruct F3 as [->|(l & ->)]; repeat split. }
  destruct Q3 as (q31 & q32 & q33 & q34 & q35).
  unfold bind in H at 1.
  destruct (store i_preds set_preds j (o_rowD o d) w3) as [w4 o4] eqn:E4.
  rewrite <- q13, <- q23, <- q33 in S4.
  destruct (store_spec_cases i_preds set_preds _ _ _ _ _ n Hj S4 (fun _ _ => eq_refl) E4)
    as (R4 & [(-> & U4 & F4)|(e & -> & ->)]).
  2:{ inv H. split; [congruence|].
      split; [unfold same_rest in *; intuition congruence|].
      rewrite q11 in U2. rewrite q22, q12 in U3. repeat split;
      try (rewrite ?q31, ?q32, ?q33, ?q34, ?q21, ?q22, ?q23, ?q24, ?q11, ?q12, ?q13, ?q14; apply maybe_upd_refl);
      rewrite ?q31, ?q32, ?q21; eapply upd_arr_maybe; eauto. }
  assert (Q4 : i_logPi (w_inst w4) = i_logPi (w_inst w3) /\ i_L2s (w_inst w4) = i_L2s (w_inst w3) /\
          i_priors (w_inst w4) = i_priors (w_inst w3) /\ i_chain (w_inst w4) = i_chain (w_inst w3) /\
          same_rest (w_inst w3) (w_inst w4)).
  { destruct F4 as [->|(l & ->)]; repeat split. }
  destruct Q4 as (q41 & q42 & q43 & q44 & q45).
  rewrite <- q14, <- q24, <- q34, <- q44 in S5.
  destruct (store_spec_cases i_chain set_chain _ _ _ _ _ n Hj S5 (fun _ _ => eq_refl) H)
    as (R5 & [(-> & U5 & F5)|(e & -> & ->)]).
  2:{ split; [congruence|].
      split; [unfold same_rest in *; intuition congruence|].
      rewrite q11 in U2. rewrite q22, q12 in U3. rewrite q33, q23, q13 in U4. repeat split;
      try (rewrite ?q41, ?q42, ?q43, ?q44, ?q31, ?q32, ?q33, ?q34, ?q21, ?q22, ?q23, ?q24, ?q11, ?q12, ?q13, ?q14; apply maybe_upd_refl);
      rewrite ?q41, ?q42, ?q43, ?q31, ?q32, ?q21; eapply upd_arr_maybe; eauto. }
  assert (Q5 : i_logPi (w_inst w') = i_logPi (w_inst w4) /\ i_L2s (w_inst w') = i_L2s (w_inst w4) /\
          i_priors (w_inst w') = i_priors (w_inst w4) /\ i_preds (w_inst w') = i_preds (w_inst w4) /\
          same_rest (w_inst w4) (w_inst w')).
  { destruct F5 as [->|(l & ->)]; repeat split. }
  destruct Q5 as (q51 & q52 & q53 & q54 & q55).
  split; [congruence|].
  split; [unfold same_rest in *; intuition congruence|].
  rewrite q11 in U2. rewrite q22, q12 in U3. rewrite q33, q23, q13 in U4.
  rewrite q44, q34, q24, q14 in U5.
  unfold upd_all. rewrite q51, q52, q53, q54, q41, q42, q43, q31, q32, q21. auto.
Qed.

(** *** [records] and row updates *)

Lemma Forall2_length {A B} (R : A -> B -> Prop) l m : Forall2 R l m -> List.length l = List.length m.
Proof. induction 1; simpl; congruence. Qed.

Lemma skipn_cons_nth {A} (l : list A) k :
  (k < List.length l)%nat -> exists x, skipn k l = x :: skipn (k + 1) l.
Proof.
  revert k; induction l as [|y l IH]; intros [|k] H; simpl in *; try lia.
  - exists y. reflexivity.
  - destruct (IH k) as (x & E); [lia|]. exists x. rewrite E. f_equal.
Qed.

Lemma rec_arr_upd {A B} (cast : A -> res B) l x old arr arr' n :
  rec_arr cast l old arr -> len_arr n old -> (List.length l < n)%nat ->
  upd_arr (List.length l) (cast x) arr arr' ->
  rec_arr cast (l ++ [x]) old arr'.
Proof.
  destruct old as [a0|], arr as [a|], arr' as [a'|]; simpl; try tauto.
  intros (rows & HF & Hle & ->) Hlen Hlt (r & Hr & ->).
  exists (rows ++ [r]).
  pose proof (Forall2_length _ _ _ HF) as HL.
  destruct (skipn_cons_nth a0 (List.length l)) as (y & Ey); [lia|].
  split; [apply Forall2_app; auto|].
  rewrite app_length. simpl. split; [lia|].
  rewrite Ey, HL, upd_app_exact, <- app_assoc. simpl. reflexivity.
Qed.

Lemma rec_arr_len {A B} (cast : A -> res B) l old arr n :
  rec_arr cast l old arr -> len_arr n old -> len_arr n arr.
Proof.
  destruct old as [a0|], arr as [a|]; simpl; try tauto.
  intros (rows & HF & Hle & ->) Hl.
  rewrite app_length, skipn_length, <- (Forall2_length _ _ _ HF). lia.
Qed.

Lemma rec_arr_maybe {A B} (cast : A -> res B) l old arr arr' n :
  rec_arr cast l old arr -> len_arr n old -> (List.length l < n)%nat ->
  maybe_upd (List.length l) arr arr' ->
  rec_or_torn cast l old arr'.
Proof.
  intros HR HL Hlt HM. unfold rec_or_torn.
  destruct old as [a0|], arr as [a|], arr' as [a'|]; simpl in *; try tauto.
  destruct HM as [->|(r & ->)]; [left; exact HR|right].
  destruct HR as (rows & HF & Hle & ->).
  destruct (skipn_cons_nth a0 (List.length l)) as (y & Ey); [lia|].
  exists rows, r. split; [exact HF|]. split; [lia|].
  rewrite Ey, (Forall2_length _ _ _ HF), upd_app_exact. reflexivity.
Qed.

Lemma rec_arr_nil {A B} (cast : A -> res B) arr : rec_arr cast [] arr arr.
Proof. destruct arr; simpl; auto. exists []. repeat split; auto with arith. Qed.

Lemma records_nil s : records o s s [].
Proof. unfold records. simpl. repeat split; apply rec_arr_nil. Qed.

Lemma records_sized s0 s l n : records o s0 s l -> sized s0 n -> sized s n.
Proof.
  intros (A & B & C & E & F) (A' & B' & C' & E' & F').
  repeat split; eapply rec_arr_len; eauto.
Qed.

Lemma records_upd s0 s s' l x d a b c n :
  records o s0 s l -> sized s0 n -> (List.length l < n)%nat ->
  upd_all (List.length l) x d a b c s s' ->
  records o s0 s' (l ++ [(x, d, (a, b, c))]).
Proof.
  intros (A & B & C & E & F) (A' & B' & C' & E' & F') Hlt (U1 & U2 & U3 & U4 & U5).
  unfold records. rewrite !map_app. simpl.
  repeat split; eapply rec_arr_upd; eauto; rewrite map_length; eauto.
Qed.

Lemma records_maybe s0 s s' l n :
  records o s0 s l -> sized s0 n -> (List.length l < n)%nat ->
  maybe_all (List.length l) s s' ->
  records_torn o s0 s' l.
Proof.
  intros (A & B & C & E & F) (A' & B' & C' & E' & F') Hlt (U1 & U2 & U3 & U4 & U5).
  unfold records_torn.
  repeat split; eapply rec_arr_maybe; eauto; rewrite map_length; eauto.
Qed.

Lemma records_same s0 s s' l : records o s0 s l -> same_tracked s s' -> records o s0 s' l.
Proof.
  intros H (A & B & C & E & F). unfold records. rewrite A, B, C, E, F. exact H.
Qed.

Lemma records_torn_of s0 s l : records o s0 s l -> records_torn o s0 s l.
Proof.
  intros (A & B & C & E & F). unfold records_torn, rec_or_torn. tauto.
Qed.

Lemma same_tracked_refl s : same_tracked s s.
Proof. repeat split. Qed.

Lemma same_tracked_trans s1 s2 s3 : same_tracked s1 s2 -> same_tracked s2 s3 -> same_tracked s1 s3.
Proof. unfold same_tracked. intuition congruence. Qed.

(** *** small monad facts *)
Lemma with_rng_inv {A} (f : G -> res A * G) (w w' : world) out :
  with_rng f w = (w', out) ->
  w_inst w' = w_inst w /\
  ((exists a, f (w_rng w) = (Ok a, w_rng w') /\ out = Ret a) \/
   (exists e, f (w_rng w) = (Raise e, w_rng w') /\ out = Exn e)).
Proof.
  unfold with_rng. destruct (f (w_rng w)) as [[a|e] g'] eqn:E; simpl; intros H; inv H; simpl; eauto.
Qed.

Lemma lift_inv {A} (r : res A) (w w' : world) out :
  lift r w = (w', out) ->
  w' = w /\ ((exists a, r = Ok a /\ out = Ret a) \/ (exists e, r = Raise e /\ out = Exn e)).
Proof. destruct r; simpl; intros H; inv H; eauto. Qed.

Lemma print_inv e (w w' : world) out :
  print e w = (w', out) ->
  out = Ret tt /\ w_rng w' = w_rng w /\ w_inst w' = set_out (i_out (w_inst w) ++ [e]) (w_inst w).
Proof. unfold print, bind, get_inst, put_inst. simpl. intros H; inv H; auto. Qed.

Lemma bind_inv {A B} (m : @M V D K P G A) (k : A -> M B) (w w' : world) out :
  bind m k w = (w', out) ->
  (exists w1 a, m w = (w1, Ret a) /\ k a w1 = (w', out)) \/
  (exists e, m w = (w', Exn e) /\ out = Exn e) \/
  (m w = (w', NoFuel) /\ out = NoFuel).
Proof.
  unfold bind. destruct (m w) as [w1 [a|e|]] eqn:E; intros H.
  - left; eauto.
  - inv H. right; left; eauto.
  - inv H. right; right; auto.
Qed.

Lemma read_attr_inv {A} (get : inst -> option (list A)) k (w w' : world) out :
  read_attr get k w = (w', out) ->
  w' = w /\
  match get (w_inst w) with
  | None => out = Exn AttributeError
  | Some l => match py_index l k with Ok a => out = Ret a | Raise e => out = Exn e end
  end.
Proof.
  unfold read_attr, bind, get_inst. destruct (get (w_inst w)) as [l|].
  - destruct (py_index l k) as [a|e]; simpl; intros H; inv H; auto.
  - simpl. intros H; inv H; auto.
Qed.

Lemma print_saved_inv j (w w' : world) out :
  print_saved j w = (w', out) ->
  (exists lps l2s prs lp l2 pr,
     i_logPi (w_inst w) = Some lps /\ i_L2s (w_inst w) = Some l2s /\ i_priors (w_inst w) = Some prs /\
     py_index lps (j-1) = Ok lp /\ py_index l2s (j-1) = Ok l2 /\ py_index prs (j-1) = Ok pr /\
     out = Ret tt /\ w_rng w' = w_rng w /\
     w_inst w' = set_out (i_out (w_inst w) ++ [EvProgress (j - 1 + 1) lp l2 pr None]) (w_inst w)) \/
  (exists e, out = Exn e /\ w' = w /\
     (e = AttributeError ->
        i_logPi (w_inst w) = None \/ i_L2s (w_inst w) = None \/ i_priors (w_inst w) = None) /\
     (e <> AttributeError -> e = IndexError)).
Proof.
  assert (HI : forall A (l : list A) k e, py_index l k = Raise e -> e = IndexError).
  { intros A l k e. unfold py_index. destruct (_ || _); [congruence|].
    destruct (nth_error _ _); congruence. }
  unfold print_saved. intros H.
  destruct (bind_inv _ _ _ _ _ H) as [(w1 & lp & E1 & H1)|[(e & E1 & ->)|(E1 & ->)]].
  2:{ destruct (read_attr_inv _ _ _ _ _ E1) as (-> & C). right. exists e.
      destruct (i_logPi (w_inst w)) as [lps|] eqn:EL; [|inv C; intuition congruence].
      destruct (py_index lps (j-1)) eqn:Ei; [discriminate|]. inv C.
      apply HI in Ei. subst. intuition congruence. }
  2:{ destruct (read_attr_inv _ _ _ _ _ E1) as (-> & C). exfalso.
      destruct (i_logPi (w_inst w)) as [lps|]; [|discriminate]. destruct (py_index lps (j-1)); discriminate. }
  destruct (read_attr_inv _ _ _ _ _ E1) as (-> & C1). clear E1 H.
  destruct (i_logPi (w_inst w)) as [lps|] eqn:EL1; [|discriminate].
  destruct (py_index lps (j-1)) as [lp'|] eqn:Ei1; [|discriminate]. inv C1.
  destruct (bind_inv _ _ _ _ _ H1) as [(w1 & l2 & E1 & H)|[(e & E1 & ->)|(E1 & ->)]].
  2:{ destruct (read_attr_inv _ _ _ _ _ E1) as (-> & C). right. exists e.
      destruct (i_L2s (w_inst w)) as [lps2|] eqn:EL; [|inv C; intuition congruence].
      destruct (py_index lps2 (j-1)) eqn:Ei; [discriminate|]. inv C.
      apply HI in Ei. subst. intuition congruence. }
  2:{ destruct (read_attr_inv _ _ _ _ _ E1) as (-> & C). exfalso.
      destruct (i_L2s (w_inst w)) as [lps2|]; [|discriminate]. destruct (py_index lps2 (j-1)); discriminate. }
  destruct (read_attr_inv _ _ _ _ _ E1) as (-> & C1). clear E1 H1.
  destruct (i_L2s (w_inst w)) as [l2s|] eqn:EL2; [|discriminate].
  destruct (py_index l2s (j-1)) as [l2'|] eqn:Ei2; [|discriminate]. inv C1.
  destruct (bind_inv _ _ _ _ _ H) as [(w1 & pr & E1 & H1)|[(e & E1 & ->)|(E1 & ->)]].
  2:{ destruct (read_attr_inv _ _ _ _ _ E1) as (-> & C). right. exists e.
      destruct (i_priors (w_inst w)) as [lps2|] eqn:EL; [|inv C; intuition congruence].
      destruct (py_index lps2 (j-1)) eqn:Ei; [discriminate|]. inv C.
      apply HI in Ei. subst. intuition congruence. }
  2:{ destruct (read_attr_inv _ _ _ _ _ E1) as (-> & C). exfalso.
      destruct (i_priors (w_inst w)) as [lps2|]; [|discriminate]. destruct (py_index lps2 (j-1)); discriminate. }
  destruct (read_attr_inv _ _ _ _ _ E1) as (-> & C1). clear E1 H.
  destruct (i_priors (w_inst w)) as [prs|] eqn:EL3; [|discriminate].
  destruct (py_index prs (j-1)) as [pr'|] eqn:Ei3; [|discriminate]. inv C1.
  destruct (print_inv _ _ _ _ H1) as (-> & Hr & Hi).
  left. repeat eexists; eauto.
Qed.

End Facts.
