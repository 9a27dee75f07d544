(** Sorting real numbers ([np.sort]) and order statistics. *)
From Coq Require Import List ZArith Lia Bool Reals Lra Permutation Sorted.
Import ListNotations.
Open Scope R_scope.

(** [a <= b] as a boolean *)
Definition Rleb (a b : R) : bool := if Rle_dec a b then true else false.
Definition Rltb (a b : R) : bool := if Rlt_dec a b then true else false.
Definition Reqb (a b : R) : bool := if Req_EM_T a b then true else false.

Lemma Rleb_true : forall a b, Rleb a b = true <-> a <= b.
Proof. intros; unfold Rleb; destruct (Rle_dec a b); split; auto; discriminate. Qed.
Lemma Rltb_true : forall a b, Rltb a b = true <-> a < b.
Proof. intros; unfold Rltb; destruct (Rlt_dec a b); split; auto; discriminate. Qed.
Lemma Reqb_true : forall a b, Reqb a b = true <-> a = b.
Proof. intros; unfold Reqb; destruct (Req_EM_T a b); split; auto; discriminate. Qed.
Lemma Rleb_spec : forall a b, reflect (a <= b) (Rleb a b).
Proof. intros; unfold Rleb; destruct (Rle_dec a b); constructor; auto. Qed.
Lemma Rltb_spec : forall a b, reflect (a < b) (Rltb a b).
Proof. intros; unfold Rltb; destruct (Rlt_dec a b); constructor; auto. Qed.
Lemma Reqb_spec : forall a b, reflect (a = b) (Reqb a b).
Proof. intros; unfold Reqb; destruct (Req_EM_T a b); constructor; auto. Qed.

Fixpoint rinsert (a : R) (l : list R) : list R :=
  match l with
  | [] => [a]
  | b :: l' => if Rle_dec a b then a :: l else b :: rinsert a l'
  end.
(** [np.sort(l)] *)
Definition rsort (l : list R) : list R := fold_right rinsert [] l.

Lemma rinsert_perm : forall a l, Permutation (a :: l) (rinsert a l).
Proof.
  induction l; simpl; auto. destruct (Rle_dec a a0); auto.
  eapply perm_trans; [apply perm_swap|]. constructor; auto.
Qed.
Lemma rsort_perm : forall l, Permutation l (rsort l).
Proof.
  induction l; simpl; auto. eapply perm_trans; [|apply rinsert_perm]. constructor; auto.
Qed.
Lemma rsort_length : forall l, length (rsort l) = length l.
Proof. intros; symmetry; apply Permutation_length, rsort_perm. Qed.
Lemma rinsert_hd : forall a b l, b <= a -> HdRel Rle b l -> HdRel Rle b (rinsert a l).
Proof.
  intros; destruct l; simpl; [constructor; auto|]. destruct (Rle_dec a r); constructor; auto.
  inversion H0; auto.
Qed.
Lemma rinsert_sorted : forall a l, Sorted Rle l -> Sorted Rle (rinsert a l).
Proof.
  induction l; simpl; intros; auto. destruct (Rle_dec a a0); auto.
  inversion H; subst. constructor; auto. apply rinsert_hd; auto. lra.
Qed.
Lemma rsort_sorted : forall l, Sorted Rle (rsort l).
Proof. induction l; simpl; auto. apply rinsert_sorted; auto. Qed.

Lemma sorted_tail_ge : forall l a b, Sorted Rle (a :: l) -> In b l -> a <= b.
Proof.
  intros l a b H Hb. apply Sorted_StronglySorted in H; [|intros x y z; apply Rle_trans].
  inversion H; subst. rewrite Forall_forall in H3. auto.
Qed.
Lemma sorted_nth_le : forall l i j d, Sorted Rle l -> (i <= j < length l)%nat ->
  nth i l d <= nth j l d.
Proof.
  induction l; simpl; intros; [lia|].
  destruct i, j; simpl; try lra; try lia.
  - apply sorted_tail_ge with l; auto. apply nth_In; lia.
  - apply IHl; [inversion H; auto|lia].
Qed.
Lemma rsort_nth_le : forall l i j d, (i <= j < length l)%nat ->
  nth i (rsort l) d <= nth j (rsort l) d.
Proof. intros; apply sorted_nth_le; [apply rsort_sorted|rewrite rsort_length; auto]. Qed.

(** sorting is determined by the multiset *)
Lemma sorted_perm_eq : forall l m, Sorted Rle l -> Sorted Rle m -> Permutation l m -> l = m.
Proof.
  induction l; intros m Hl Hm P.
  - symmetry; apply Permutation_nil; auto.
  - destruct m; [symmetry in P; apply Permutation_nil in P; discriminate|].
    assert (a = r).
    { assert (In r (a :: l)) by (apply Permutation_in with (r :: m); [symmetry; auto|left; auto]).
      assert (In a (r :: m)) by (apply Permutation_in with (a :: l); auto; left; auto).
      assert (a <= r) by (destruct H as [->|H]; [lra|apply sorted_tail_ge with l; auto]).
      assert (r <= a) by (destruct H0 as [->|H0]; [lra|apply sorted_tail_ge with m; auto]).
      lra. }
    subst. f_equal. apply IHl; [inversion Hl; auto|inversion Hm; auto|].
    apply Permutation_cons_inv with r; auto.
Qed.
Lemma rsort_perm_eq : forall l m, Permutation l m -> rsort l = rsort m.
Proof.
  intros; apply sorted_perm_eq; try apply rsort_sorted.
  eapply perm_trans; [symmetry; apply rsort_perm|]. eapply perm_trans; [eauto|apply rsort_perm].
Qed.
Lemma rsort_of_sorted : forall l, Sorted Rle l -> rsort l = l.
Proof.
  intros; apply sorted_perm_eq; auto; [apply rsort_sorted|symmetry; apply rsort_perm].
Qed.

(** sorting commutes with increasing maps and reverses under decreasing ones *)
Lemma Sorted_map_mono : forall (f : R -> R) l, (forall a b, a <= b -> f a <= f b) ->
  Sorted Rle l -> Sorted Rle (map f l).
Proof.
  intros f l Hf H; induction H; simpl; constructor; auto.
  destruct H0; simpl; constructor; auto.
Qed.
Lemma rsort_map_mono : forall (f : R -> R) l, (forall a b, a <= b -> f a <= f b) ->
  rsort (map f l) = map f (rsort l).
Proof.
  intros; apply sorted_perm_eq; [apply rsort_sorted|apply Sorted_map_mono; auto; apply rsort_sorted|].
  eapply perm_trans; [symmetry; apply rsort_perm|]. apply Permutation_map, rsort_perm.
Qed.
Lemma Sorted_rev_anti : forall (f : R -> R) l, (forall a b, a <= b -> f b <= f a) ->
  Sorted Rle l -> Sorted Rle (rev (map f l)).
Proof.
  intros f l Hf H. apply Sorted_StronglySorted in H; [|intros x y z; apply Rle_trans].
  induction H; simpl; auto. apply StronglySorted_Sorted.
  assert (G : forall m b, StronglySorted Rle m -> (forall c, In c m -> c <= b) -> StronglySorted Rle (m ++ [b])).
  { induction m; simpl; intros; repeat constructor; auto.
    - apply IHm; [inversion H1; auto|auto].
    - apply Forall_forall; intros x Hx. apply in_app_or in Hx; destruct Hx as [Hx|[<-|[]]]; auto.
      inversion H1; subst. rewrite Forall_forall in H6; auto. }
  apply G.
  - apply Sorted_StronglySorted; [intros x y z; apply Rle_trans|auto].
  - intros c Hc. apply in_rev in Hc. apply in_map_iff in Hc. destruct Hc as [x [<- Hx]].
    apply Hf. rewrite Forall_forall in H0; auto.
Qed.
Lemma rsort_map_anti : forall (f : R -> R) l, (forall a b, a <= b -> f b <= f a) ->
  rsort (map f l) = rev (map f (rsort l)).
Proof.
  intros; apply sorted_perm_eq; [apply rsort_sorted|apply Sorted_rev_anti; auto; apply rsort_sorted|].
  eapply perm_trans; [symmetry; apply rsort_perm|].
  eapply perm_trans; [|apply Permutation_rev]. apply Permutation_map, rsort_perm.
Qed.

(** ** Counting *)

(** how many entries satisfy a test *)
Definition count {A} (p : A -> bool) (l : list A) : nat := length (filter p l).

Lemma count_cons : forall {A} (p : A -> bool) a l,
  count p (a :: l) = ((if p a then 1 else 0) + count p l)%nat.
Proof. intros; unfold count; simpl; destruct (p a); simpl; lia. Qed.
Lemma count_app : forall {A} (p : A -> bool) l m, count p (l ++ m) = (count p l + count p m)%nat.
Proof. intros; unfold count; rewrite filter_app, app_length; auto. Qed.
Lemma count_perm : forall {A} (p : A -> bool) l m, Permutation l m -> count p l = count p m.
Proof.
  intros A p l m H; induction H; rewrite ?count_cons; auto; lia.
Qed.
Lemma count_le_length : forall {A} (p : A -> bool) l, (count p l <= length l)%nat.
Proof. induction l; [unfold count; simpl; lia|]. rewrite count_cons; simpl; destruct (p a); lia. Qed.
Lemma count_all : forall {A} (p : A -> bool) l, (forall a, In a l -> p a = true) -> count p l = length l.
Proof.
  induction l; intros; [reflexivity|]. rewrite count_cons, IHl, H by (intros; try apply H; simpl; auto). reflexivity.
Qed.
Lemma count_none : forall {A} (p : A -> bool) l, (forall a, In a l -> p a = false) -> count p l = O.
Proof.
  induction l; intros; [reflexivity|]. rewrite count_cons, IHl, H by (intros; try apply H; simpl; auto). reflexivity.
Qed.
Lemma count_map : forall {A B} (p : B -> bool) (f : A -> B) l, count p (map f l) = count (fun a => p (f a)) l.
Proof. induction l; [reflexivity|]. simpl map. rewrite !count_cons, IHl; reflexivity. Qed.
Lemma count_mono : forall {A} (p q : A -> bool) l, (forall a, In a l -> p a = true -> q a = true) ->
  (count p l <= count q l)%nat.
Proof.
  induction l; intros; [unfold count; simpl; lia|]. rewrite !count_cons.
  assert (count p l <= count q l)%nat by (apply IHl; intros; apply H; simpl; auto).
  specialize (H a (or_introl eq_refl)). destruct (p a), (q a); try lia; discriminate (H eq_refl).
Qed.
Lemma count_ext : forall {A} (p q : A -> bool) l, (forall a, In a l -> p a = q a) -> count p l = count q l.
Proof. induction l; intros; [reflexivity|]. rewrite !count_cons, IHl, H by (intros; try apply H; simpl; auto). reflexivity. Qed.

(** The k-th smallest (k from 0) value v of a list: at most k entries are
    smaller and more than k entries are <= v. *)
Lemma order_statistic : forall l k d, (k < length l)%nat ->
  (count (fun a => Rltb a (nth k (rsort l) d)) l <= k)%nat /\
  (k < count (fun a => Rleb a (nth k (rsort l) d)) l)%nat.
Proof.
  intros l k d Hk.
  rewrite !(count_perm _ _ _ (rsort_perm l)).
  assert (So := rsort_sorted l). assert (L := rsort_length l).
  rewrite <- L in Hk. set (s := rsort l) in *. clearbody s. clear L l.
  assert (E : forall p j, count p s = (count p (firstn j s) + count p (skipn j s))%nat)
    by (intros; rewrite <- count_app, firstn_skipn; reflexivity).
  rewrite (E _ k), (E (fun a => Rleb a (nth k s d)) (S k)). split.
  - rewrite (count_none _ (skipn k s)).
    + assert (X := count_le_length (fun a => Rltb a (nth k s d)) (firstn k s)).
      rewrite firstn_length in X. lia.
    + intros a Ha. destruct (Rltb_spec a (nth k s d)); auto. exfalso.
      apply In_nth with (d := d) in Ha. destruct Ha as [i [Hi <-]].
      rewrite skipn_length in Hi.
      assert (nth k s d <= nth i (skipn k s) d); [|lra].
      rewrite <- (firstn_skipn k s) at 1. rewrite app_nth2 by (rewrite firstn_length; lia).
      rewrite firstn_length, Nat.min_l by lia. rewrite Nat.sub_diag.
      apply sorted_nth_le; [|rewrite skipn_length; lia].
      clear - So. revert k; induction So; intros [|k]; simpl; auto; constructor; auto.
  - rewrite (count_all _ (firstn (S k) s)).
    + rewrite firstn_length. lia.
    + intros a Ha. apply Rleb_true.
      apply In_nth with (d := d) in Ha. destruct Ha as [i [Hi <-]].
      rewrite firstn_length in Hi.
      replace (nth i (firstn (S k) s) d) with (nth i s d).
      * apply sorted_nth_le; auto. lia.
      * rewrite <- (firstn_skipn (S k) s) at 1. rewrite app_nth1; auto.
        rewrite firstn_length; lia.
Qed.

Lemma count_negb : forall {A} (p : A -> bool) l,
  (count p l + count (fun a => negb (p a)) l = length l)%nat.
Proof.
  induction l; [reflexivity|]. rewrite !count_cons. simpl length. destruct (p a); simpl; lia.
Qed.
(** the same, counted from the top *)
Lemma order_statistic_top : forall l k d, (k < length l)%nat ->
  (length l - k <= count (fun a => Rleb (nth k (rsort l) d) a) l)%nat /\
  (count (fun a => Rltb (nth k (rsort l) d) a) l < length l - k)%nat.
Proof.
  intros l k d Hk. destruct (order_statistic l k d Hk) as [A B].
  assert (E1 := count_negb (fun a => Rltb a (nth k (rsort l) d)) l).
  assert (E2 := count_negb (fun a => Rleb a (nth k (rsort l) d)) l).
  rewrite (count_ext (fun a => negb (Rltb a (nth k (rsort l) d))) (fun a => Rleb (nth k (rsort l) d) a)) in E1.
  rewrite (count_ext (fun a => negb (Rleb a (nth k (rsort l) d))) (fun a => Rltb (nth k (rsort l) d) a)) in E2.
  - lia.
  - intros a _. destruct (Rleb_spec a (nth k (rsort l) d)), (Rltb_spec (nth k (rsort l) d) a); simpl; auto; lra.
  - intros a _. destruct (Rltb_spec a (nth k (rsort l) d)), (Rleb_spec (nth k (rsort l) d) a); simpl; auto; lra.
Qed.
