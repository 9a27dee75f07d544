(** Sorting floats and quantiles in floating point. *)
From Coq Require Import List ZArith Lia Bool Reals Lra Permutation Sorted.
From Verif Require Import PyBase PyBaseFacts CVec RSort Thresh Utils UtilsProof Transforms Uncertainty UncProof Ieee FloatOps FloatUnc RoundProof.
Import ListNotations.
Open Scope R_scope.

Lemma abs_le : forall x e, Rabs x <= e <-> - e <= x <= e.
Proof. intros x e. split; [|apply Rabs_le]. unfold Rabs. destruct (Rcase_abs x); lra. Qed.

(** ** sorting *)
Definition before (a b : float) : Prop :=
  match a, b with
  | _, NaN => True
  | NaN, _ => False
  | NInf, _ | _, PInf => True
  | Fin x, Fin y => x <= y
  | _, _ => False
  end.
Lemma f_before_true : forall a b, f_before a b = true <-> before a b.
Proof. intros [x| | |] [y| | |]; cbn; try destruct (Rle_dec x y); split; intros; try discriminate; try contradiction; auto. Qed.
Lemma before_total : forall a b, f_before a b = false -> before b a.
Proof. intros [x| | |] [y| | |]; cbn; try destruct (Rle_dec x y); intros; try discriminate; auto; lra. Qed.
Lemma before_trans : forall a b c, before a b -> before b c -> before a c.
Proof. intros [x| | |] [y| | |] [z| | |]; cbn; auto; try tauto; lra. Qed.
Lemma before_refl : forall a, before a a.
Proof. intros [x| | |]; cbn; auto; lra. Qed.
Lemma before_antisym : forall a b, before a b -> before b a -> a = b.
Proof. intros [x| | |] [y| | |]; cbn; intros; try reflexivity; try contradiction. f_equal; lra. Qed.

Lemma f_insert_perm : forall a l, Permutation (a :: l) (f_insert a l).
Proof.
  induction l as [|b l IH]; cbn [f_insert]; [reflexivity|]. destruct (f_before a b); [reflexivity|].
  rewrite perm_swap. now constructor.
Qed.
Lemma f_sort_perm : forall l, Permutation l (f_sort l).
Proof. induction l as [|a l IH]; cbn; [reflexivity|]. rewrite <- f_insert_perm. now constructor. Qed.
Lemma f_sort_length : forall l, length (f_sort l) = length l.
Proof. intros. symmetry. apply Permutation_length, f_sort_perm. Qed.
Lemma f_insert_hd : forall a b l, before b a -> HdRel before b l -> HdRel before b (f_insert a l).
Proof. intros a b [|c l] H1 H2; cbn [f_insert]; [auto|]. inversion H2; subst. destruct (f_before a c); auto. Qed.
Lemma f_insert_sorted : forall a l, Sorted before l -> Sorted before (f_insert a l).
Proof.
  induction l as [|b l IH]; intros H; cbn [f_insert]; [repeat constructor|].
  destruct (f_before a b) eqn:E; [constructor; auto; constructor; now apply f_before_true|].
  inversion H; subst. constructor; [auto|]. apply f_insert_hd; auto. now apply before_total.
Qed.
Lemma f_sort_sorted : forall l, Sorted before (f_sort l).
Proof. induction l; cbn; [constructor|now apply f_insert_sorted]. Qed.
Lemma sorted_head : forall l a b, Sorted before (a :: l) -> In b l -> before a b.
Proof.
  induction l as [|c l IH]; intros a b H I; [contradiction|]. inversion H as [|? ? S1 H1]; subst. inversion H1; subst. destruct I as [<-|I]; auto.
  apply before_trans with c; auto.
Qed.
Lemma sorted_nth : forall l i j d, Sorted before l -> (i <= j < length l)%nat -> before (nth i l d) (nth j l d).
Proof.
  induction l as [|a l IH]; intros i j d H L; cbn in L; [lia|]. inversion H; subst. destruct i as [|i], j as [|j]; cbn.
  - apply before_refl.
  - apply sorted_head with l; auto. apply nth_In. lia.
  - lia.
  - apply IH; auto. lia.
Qed.
Lemma f_sorted_perm_eq : forall l m, Sorted before l -> Sorted before m -> Permutation l m -> l = m.
Proof.
  induction l as [|a l IH]; intros [|b m] S1 S2 P; auto.
  - apply Permutation_length in P; discriminate.
  - apply Permutation_length in P; discriminate.
  - assert (E : a = b).
    { assert (I1 := Permutation_in b (Permutation_sym P) (or_introl eq_refl)). assert (I2 := Permutation_in a P (or_introl eq_refl)).
      destruct I1 as [?|I1]; auto. destruct I2 as [?|I2]; auto.
      apply before_antisym; [apply sorted_head with l|apply sorted_head with m]; auto. }
    subst b. f_equal. inversion S1; inversion S2; subst. apply IH; auto. now apply Permutation_cons_inv with a.
Qed.
Lemma f_sort_of : forall l s, Permutation l s -> Sorted before s -> f_sort l = s.
Proof. intros l s P H. apply f_sorted_perm_eq; [apply f_sort_sorted|auto|]. now rewrite <- f_sort_perm. Qed.

Lemma f_sort_fin : forall a, f_sort (map Fin a) = map Fin (rsort a).
Proof.
  intros a. apply f_sort_of; [apply Permutation_map, rsort_perm|].
  assert (H := rsort_sorted a). induction H as [|x l S1 IH H]; cbn [map]; constructor; auto. destruct H; constructor. exact H.
Qed.

(** ** the last entry tells whether there is a NaN *)
Lemma nan_last : forall a d, In NaN a -> nth (length a - 1) (f_sort a) d = NaN.
Proof.
  intros a d H. apply (Permutation_in _ (f_sort_perm a)) in H. apply In_nth with (d := d) in H. destruct H as (i & Hi & E).
  rewrite f_sort_length in Hi. assert (Q := sorted_nth (f_sort a) i (length a - 1) d (f_sort_sorted a)). rewrite f_sort_length, E in Q.
  specialize (Q ltac:(lia)). destruct (nth (length a - 1) (f_sort a) d); cbn in Q; auto; contradiction.
Qed.
Lemma no_nan_nth : forall a i d, ~ In NaN a -> (i < length a)%nat -> nth i (f_sort a) d <> NaN.
Proof.
  intros a i d H Hi E. apply H. apply (Permutation_in _ (Permutation_sym (f_sort_perm a))). rewrite <- E. apply nth_In. now rewrite f_sort_length.
Qed.
Lemma index_nth : forall {A} (l : list A) k d, (k < length l)%nat -> py_index l (Z.of_nat k) = Ok (nth k l d).
Proof.
  intros A l k d H. unfold py_index. destruct (Z.ltb_spec (Z.of_nat k) 0); [lia|]. destruct (Z.ltb_spec (Z.of_nat k) 0); [lia|].
  destruct (Z.leb_spec (Z.of_nat (length l)) (Z.of_nat k)); [lia|]. cbn [orb]. rewrite Nat2Z.id. rewrite (nth_error_nth' _ d) by auto. reflexivity.
Qed.
Lemma index_last : forall {A} (l : list A) d, (0 < length l)%nat -> py_index l (-1) = Ok (nth (length l - 1) l d).
Proof.
  intros A l d H. unfold py_index. cbn [Z.ltb Z.compare]. 
  destruct (Z.ltb_spec (Z.of_nat (length l) + -1) 0); [lia|].
  destruct (Z.leb_spec (Z.of_nat (length l)) (Z.of_nat (length l) + -1)); [lia|]. cbn [orb].
  replace (Z.to_nat (Z.of_nat (length l) + -1)) with (length l - 1)%nat by lia. rewrite (nth_error_nth' _ d) by lia. reflexivity.
Qed.

(** ** sorting moves no number by more than the numbers move *)
Lemma count_near : forall (a b : list R) e x, List.Forall2 (fun u v => Rabs (u - v) <= e) a b ->
  (count (fun u => Rleb u x) a <= count (fun v => Rleb v (x + e)) b)%nat.
Proof.
  intros a b e x H. induction H as [|u v a b H1 H2 IH]; [reflexivity|]. rewrite !count_cons.
  destruct (Rleb_spec u x), (Rleb_spec v (x + e)); try lia. exfalso. apply abs_le in H1. lra.
Qed.
Lemma sort_near1 : forall (a b : list R) e k, List.Forall2 (fun u v => Rabs (u - v) <= e) a b -> (k < length a)%nat ->
  nth k (rsort b) 0 <= nth k (rsort a) 0 + e.
Proof.
  intros a b e k H Hk. assert (L : length a = length b) by (clear - H; induction H; cbn; lia).
  destruct (order_statistic a k 0 Hk) as (_ & A2). destruct (order_statistic b k 0 ltac:(lia)) as (B1 & _).
  assert (Q := count_near a b e (nth k (rsort a) 0) H). apply Rnot_lt_le. intros N.
  assert (count (fun v => Rleb v (nth k (rsort a) 0%R + e)%R) b <= count (fun v => Rltb v (nth k (rsort b) 0%R)) b)%nat; [|lia].
  apply count_mono. intros v _ T. apply Rleb_true in T. apply Rltb_true. lra.
Qed.
Lemma sort_near : forall (a b : list R) e k, List.Forall2 (fun u v => Rabs (u - v) <= e) a b -> (k < length a)%nat ->
  Rabs (nth k (rsort a) 0 - nth k (rsort b) 0) <= e.
Proof.
  intros a b e k H Hk. assert (L : length a = length b) by (clear - H; induction H; cbn; lia).
  assert (H' : List.Forall2 (fun u v => Rabs (u - v) <= e) b a) by (clear - H; induction H; constructor; auto; now rewrite Rabs_minus_sym).
  assert (A := sort_near1 a b e k H Hk). assert (B := sort_near1 b a e k H' ltac:(lia)). apply abs_le. lra.
Qed.
Lemma interp_near : forall (a b : list R) e v, List.Forall2 (fun u v => Rabs (u - v) <= e) a b -> (0 < length a)%nat -> 0 <= v <= INR (length a - 1) ->
  Rabs (interp (rsort a) v - interp (rsort b) v) <= e.
Proof.
  intros a b e v H Hn Hv. assert (L : length a = length b) by (clear - H; induction H; cbn; lia).
  destruct (index_cases _ v Hn Hv) as [(k & t & Hk & Ht & ->)| ->].
  - rewrite !interp_segment by (rewrite ?rsort_length; lra || lia).
    assert (A := sort_near a b e k H ltac:(lia)). assert (B := sort_near a b e (S k) H ltac:(lia)).
    apply abs_le in A. apply abs_le in B. apply abs_le. split; nra.
  - assert (E1 := interp_last (rsort a)). assert (E2 := interp_last (rsort b)). rewrite rsort_length in *. rewrite <- L in E2.
    rewrite E1, E2 by lia. apply sort_near; auto. lia.
Qed.

(** the interpolated value moves by at most the spread of the numbers times the
    move of the index *)
Lemma interp_lip1 : forall s v w A, Sorted Rle s -> within A s -> (0 < length s)%nat -> 0 <= v -> v <= w -> w <= INR (length s - 1) ->
  interp s w - interp s v <= 2 * A * (w - v).
Proof.
  intros s v w A S0 W Hn H1 H2 H3.
  assert (D : forall k d, (k + d < length s)%nat -> nth (k + d) s 0 - nth k s 0 <= 2 * A).
  { intros k d Hk. assert (U := proj1 (Forall_forall _ _) W). assert (U1 := U (nth (k + d) s 0) ltac:(apply nth_In; lia)). assert (U2 := U (nth k s 0) ltac:(apply nth_In; lia)).
    apply abs_le in U1. apply abs_le in U2. lra. }
  assert (A0 : 0 <= A). { assert (Q := D 0%nat 0%nat ltac:(lia)). cbn [Nat.add] in Q. lra. }
  assert (Dk : forall d k t u, (S (k + d) < length s)%nat -> 0 <= t <= 1 -> 0 <= u <= 1 -> INR k + t <= INR (k + d) + u ->
     interp s (INR (k + d) + u) - interp s (INR k + t) <= 2 * A * (INR (k + d) + u - (INR k + t))).
  { induction d as [|d IH]; intros k t u Hk Ht Hu Hle.
    - rewrite Nat.add_0_r in *. rewrite !interp_segment by (lra || lia). assert (Q := D k 1%nat ltac:(lia)). replace (k + 1)%nat with (S k) in Q by lia. nra.
    - replace (k + S d)%nat with (S k + d)%nat in * by lia.
      assert (Q := IH (S k) 0 u Hk ltac:(lra) Hu ltac:(rewrite plus_INR; pose proof (pos_INR d); lra)).
      replace (INR (S k) + 0) with (INR k + 1) in Q by (rewrite S_INR; ring).
      assert (Q2 : interp s (INR k + 1) - interp s (INR k + t) <= 2 * A * (INR k + 1 - (INR k + t))).
      { rewrite !interp_segment by (lra || lia). assert (Q3 := D k 1%nat ltac:(lia)). replace (k + 1)%nat with (S k) in Q3 by lia. nra. }
      lra. }
  destruct (le_lt_dec (length s) 1) as [L1|L1].
  { replace (length s - 1)%nat with 0%nat in H3 by lia. cbn in H3. replace w with v by lra. lra. }
  assert (SEG : forall z, 0 <= z <= INR (length s - 1) -> exists k t, (S k < length s)%nat /\ 0 <= t <= 1 /\ z = INR k + t).
  { intros z Hz. destruct (index_cases _ z Hn Hz) as [(k & t & Hk & Ht & ->)| ->].
    - exists k, t. split; [auto|]. split; [lra|auto].
    - exists (length s - 2)%nat, 1. split; [lia|]. split; [lra|]. rewrite <- S_INR. f_equal. lia. }
  destruct (SEG v ltac:(lra)) as (k & t & Hk & Ht & ->). destruct (SEG w ltac:(lra)) as (k' & u & Hk' & Hu & ->).
  destruct (le_lt_dec k k') as [L|L].
  - replace k' with (k + (k' - k))%nat in * by lia. apply Dk; auto.
  - assert (Q := le_INR (S k') k ltac:(lia)). rewrite S_INR in Q. assert (t = 0) by lra. assert (u = 1) by lra. subst.
    replace (INR k + 0) with (INR k' + 1) by lra. lra.
Qed.
Lemma interp_lip : forall s v w A, Sorted Rle s -> within A s -> (0 < length s)%nat -> 0 <= v <= INR (length s - 1) -> 0 <= w <= INR (length s - 1) ->
  Rabs (interp s w - interp s v) <= 2 * A * Rabs (w - v).
Proof.
  intros s v w A S0 W Hn Hv Hw. destruct (Rle_dec v w) as [L|L].
  - rewrite (Rabs_pos_eq (w - v)) by lra. assert (Q := interp_lip1 s v w A S0 W Hn ltac:(lra) L ltac:(lra)).
    assert (M := interp_mono s v w S0 Hn ltac:(lra) L ltac:(lra)). rewrite Rabs_pos_eq; lra.
  - rewrite (Rabs_minus_sym w v), (Rabs_minus_sym (interp s w)). rewrite (Rabs_pos_eq (v - w)) by lra.
    assert (Q := interp_lip1 s w v A S0 W Hn ltac:(lra) ltac:(lra) ltac:(lra)).
    assert (M := interp_mono s w v S0 Hn ltac:(lra) ltac:(lra) ltac:(lra)). rewrite Rabs_pos_eq; lra.
Qed.

(** ** the two ways to a quantile *)
Lemma quantile_top : forall rnd a q, a <> [] -> f_valid q = true ->
  let n := length a in let v := fmul rnd (Fin (INR (n - 1))) q in let l := nth (n - 1) (f_sort a) NaN in
  fleb (Fin (INR (n - 1))) v = true ->
  f_quantile rnd a q = Ok (if f_is_nan l then NaN else f_lerp rnd l l (fsub rnd v (Fin (-1)))).
Proof.
  intros rnd a q Ha Hq n v l H. unfold f_quantile. rewrite Hq. fold n. fold v. unfold f_indexes. rewrite H.
  assert (L : (0 < length (f_sort a))%nat) by (rewrite f_sort_length; destruct a; [congruence|cbn; lia]).
  rewrite !(index_last _ NaN L), f_sort_length. fold n. fold l. cbn [rbind]. reflexivity.
Qed.
Lemma quantile_mid : forall rnd a q w k, f_valid q = true ->
  let n := length a in let s := f_sort a in
  fmul rnd (Fin (INR (n - 1))) q = Fin w -> INR k <= w < INR k + 1 -> (S k < n)%nat ->
  f_quantile rnd a q = Ok (if f_is_nan (nth (n - 1) s NaN) then NaN else f_lerp rnd (nth k s NaN) (nth (S k) s NaN) (rnd (w - INR k))).
Proof.
  intros rnd a q w k Hq n s Hv Hw Hk. unfold f_quantile. rewrite Hq. fold n. rewrite Hv. unfold f_indexes.
  assert (LT : w < INR (n - 1)). { assert (Q := le_INR (S k) (n - 1) ltac:(lia)). rewrite S_INR in Q. lra. }
  cbn [fleb fltb]. destruct (Rle_dec (INR (n - 1)) w); [lra|]. assert (P := pos_INR k). destruct (Rlt_dec w 0); [lra|].
  assert (E : Int_part w = Z.of_nat k).
  { destruct (base_Int_part w) as (B1 & B2). rewrite INR_IZR_INZ in Hw.
    assert (U1 : IZR (Int_part w) < IZR (Z.of_nat k + 1)) by (rewrite plus_IZR; lra).
    assert (U2 : IZR (Z.of_nat k) < IZR (Int_part w + 1)) by (rewrite plus_IZR; lra).
    apply lt_IZR in U1. apply lt_IZR in U2. lia. }
  rewrite E. replace (Z.of_nat k + 1)%Z with (Z.of_nat (S k)) by lia. fold s.
  assert (L : length s = n) by apply f_sort_length.
  rewrite (index_last s NaN) by lia. rewrite !(index_nth s _ NaN) by lia. rewrite L. cbn [rbind]. rewrite <- INR_IZR_INZ.
  cbn [fsub fneg fadd]. reflexivity.
Qed.
