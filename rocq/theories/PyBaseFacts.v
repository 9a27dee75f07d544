(** Lemmas about [PyBase]. *)
From Coq Require Import List ZArith Lia Bool String.
From Verif Require Import PyBase.
Import ListNotations.
Open Scope Z_scope.

Lemma length_upd {A} (l : list A) k a : List.length (upd l k a) = List.length l.
Proof. revert k; induction l as [|x l IH]; intros [|k]; simpl; congruence. Qed.

Lemma nth_error_upd {A} (l : list A) k a i :
  nth_error (upd l k a) i =
  if Nat.eqb i k then (if Nat.ltb k (List.length l) then Some a else None) else nth_error l i.
Proof.
  revert k i; induction l as [|x l IH]; intros k i.
  - simpl. destruct i; destruct (Nat.eqb _ k); destruct k; reflexivity.
  - destruct k as [|k]; destruct i as [|i]; simpl; try reflexivity.
    rewrite IH. destruct (Nat.eqb i k); reflexivity.
Qed.

Lemma nth_upd {A} (l : list A) k a i d :
  nth i (upd l k a) d =
  if Nat.eqb i k then (if Nat.ltb k (List.length l) then a else d) else nth i l d.
Proof.
  revert k i; induction l as [|x l IH]; intros k i.
  - simpl. destruct i, k; try reflexivity; destruct (Nat.eqb _ _); reflexivity.
  - destruct k as [|k]; destruct i as [|i]; simpl; try reflexivity.
    rewrite IH. destruct (Nat.eqb i k); reflexivity.
Qed.

Lemma upd_app_exact {A} (l r : list A) x a :
  upd (l ++ x :: r) (List.length l) a = l ++ a :: r.
Proof. induction l as [|y l IH]; simpl; congruence. Qed.

Lemma py_setitem_ok {A} (l : list A) k a :
  0 <= k < Z.of_nat (List.length l) -> py_setitem l k a = Ok (upd l (Z.to_nat k) a).
Proof.
  intros H. unfold py_setitem.
  destruct (Z.ltb_spec k 0); [lia|].
  destruct (Z.ltb_spec k 0); [lia|].
  destruct (Z.leb_spec (Z.of_nat (List.length l)) k); [lia|]. reflexivity.
Qed.

Lemma py_index_ok {A} (l : list A) k d :
  0 <= k < Z.of_nat (List.length l) -> py_index l k = Ok (nth (Z.to_nat k) l d).
Proof.
  intros H. unfold py_index.
  destruct (Z.ltb_spec k 0); [lia|].
  destruct (Z.ltb_spec k 0); [lia|].
  destruct (Z.leb_spec (Z.of_nat (List.length l)) k); [lia|]. simpl.
  rewrite (nth_error_nth' l d) by lia. reflexivity.
Qed.

Lemma py_index_neg {A} (l : list A) k d :
  0 < k <= Z.of_nat (List.length l) ->
  py_index l (- k) = Ok (nth (List.length l - Z.to_nat k) l d).
Proof.
  intros H. unfold py_index.
  destruct (Z.ltb_spec (-k) 0); [|lia].
  destruct (Z.ltb_spec (Z.of_nat (List.length l) + -k) 0); [lia|].
  destruct (Z.leb_spec (Z.of_nat (List.length l)) (Z.of_nat (List.length l) + - k)); [lia|]. simpl.
  replace (Z.to_nat (Z.of_nat (List.length l) + - k)) with (List.length l - Z.to_nat k)%nat by lia.
  rewrite (nth_error_nth' l d) by lia. reflexivity.
Qed.

Lemma length_map2 {A B C} (f : A -> B -> C) l m :
  List.length (map2 f l m) = Nat.min (List.length l) (List.length m).
Proof. revert m; induction l as [|x l IH]; intros [|y m]; simpl; auto. Qed.

Lemma nth_map2 {A B C} (f : A -> B -> C) l m i da db dc :
  (i < List.length l)%nat -> (i < List.length m)%nat ->
  nth i (map2 f l m) dc = f (nth i l da) (nth i m db).
Proof.
  revert m i; induction l as [|x l IH]; intros [|y m] [|i] Hl Hm; simpl in *; try lia; auto.
  apply IH; lia.
Qed.

Lemma map2_map_l {A A' B C} (f : A' -> B -> C) (g : A -> A') l m :
  map2 f (map g l) m = map2 (fun x y => f (g x) y) l m.
Proof. revert m; induction l as [|x l IH]; intros [|y m]; simpl; congruence. Qed.

Lemma map2_map_r {A B B' C} (f : A -> B' -> C) (g : B -> B') l m :
  map2 f l (map g m) = map2 (fun x y => f x (g y)) l m.
Proof. revert m; induction l as [|x l IH]; intros [|y m]; simpl; congruence. Qed.

Lemma map_map2 {A B C D} (g : C -> D) (f : A -> B -> C) l m :
  map g (map2 f l m) = map2 (fun x y => g (f x y)) l m.
Proof. revert m; induction l as [|x l IH]; intros [|y m]; simpl; congruence. Qed.

Lemma map2_same {A C} (f : A -> A -> C) l : map2 f l l = map (fun x => f x x) l.
Proof. induction l; simpl; congruence. Qed.

Lemma map2_ext {A B C} (f g : A -> B -> C) l m :
  (forall x y, f x y = g x y) -> map2 f l m = map2 g l m.
Proof. intros H; revert m; induction l as [|x l IH]; intros [|y m]; simpl; auto. rewrite H, IH; auto. Qed.

Lemma np_bin_eq {A B C} (f : A -> B -> C) l m :
  List.length l = List.length m -> np_bin f l m = Ok (map2 f l m).
Proof. intros H. unfold np_bin. rewrite H, Nat.eqb_refl. reflexivity. Qed.

Lemma length_zrange a b : List.length (zrange a b) = Z.to_nat (b - a).
Proof. unfold zrange. rewrite map_length, seq_length. reflexivity. Qed.

Lemma nth_zrange a b k d : (k < Z.to_nat (b - a))%nat -> nth k (zrange a b) d = a + Z.of_nat k.
Proof.
  intros H. unfold zrange.
  rewrite nth_indep with (d' := a + Z.of_nat 0) by (rewrite map_length, seq_length; lia).
  rewrite (map_nth (fun k => a + Z.of_nat k) (seq 0 (Z.to_nat (b - a))) 0%nat k).
  rewrite seq_nth by lia. reflexivity.
Qed.

Lemma rseq_ok {A} (l : list (res A)) r :
  rseq l = Ok r <-> l = map Ok r.
Proof.
  revert r; induction l as [|m l IH]; intros r; simpl.
  - split; intros H; [injection H as <-; reflexivity|].
    destruct r; [reflexivity|discriminate].
  - destruct m as [a|e]; simpl.
    + destruct (rseq l) as [s|e] eqn:E; simpl.
      * split; intros H.
        -- injection H as <-. simpl. f_equal. apply IH. reflexivity.
        -- destruct r as [|b r]; [discriminate|]. simpl in H. injection H as -> H.
           apply IH in H. injection H as ->. reflexivity.
      * split; intros H; [discriminate|].
        destruct r as [|b r]; [discriminate|]. simpl in H. injection H as -> H.
        apply IH in H. discriminate.
    + split; intros H; [discriminate|]. destruct r; discriminate.
Qed.

Lemma rseq_map_ok {A B} (f : A -> res B) (g : A -> B) l :
  (forall x, In x l -> f x = Ok (g x)) -> rseq (map f l) = Ok (map g l).
Proof.
  intros H. apply rseq_ok. induction l as [|x l IH]; simpl; auto.
  rewrite H by (left; auto). f_equal. apply IH. intros y Hy. apply H. right; auto.
Qed.

Lemma str_in_spec s l : str_in s l = true <-> In s l.
Proof.
  unfold str_in. rewrite existsb_exists. split.
  - intros (x & Hx & E). apply String.eqb_eq in E. subst. assumption.
  - intros H. exists s. split; [assumption|apply String.eqb_refl].
Qed.

Lemma list_eq_nth {A} (l m : list A) d :
  List.length l = List.length m ->
  (forall i, (i < List.length l)%nat -> nth i l d = nth i m d) -> l = m.
Proof. intros H1 H2. apply (nth_ext l m d d H1 H2). Qed.
