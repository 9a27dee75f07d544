(** C37 (credible intervals), C38 (credible region), C39 (wavelet intervals). *)
From Coq Require Import List ZArith Lia Bool Reals Lra Permutation Sorted.
From Verif Require Import PyBase PyBaseFacts CVec RSort Utils UtilsProof PriorProof Transforms Uncertainty UncProof.
Import ListNotations.
Open Scope R_scope.

(** ** vocabulary *)
(** the range reported for parameter j is x *)
Definition range_of (c : chain) (alpha : R) (j : nat) (x : R) : Prop :=
  exists r, credible_interval_range c alpha = Ok r /\ nth_error r j = Some x.
Definition smallest (l : list R) (m : R) : Prop := In m l /\ forall x, In x l -> m <= x.
Definition largest (l : list R) (m : R) : Prop := In m l /\ forall x, In x l -> x <= m.

(** ** lemmas *)
Definition range1 (l : list R) (alpha : R) : R :=
  interp (rsort l) ((1 - alpha / 2) * INR (length l - 1)) - interp (rsort l) (alpha / 2 * INR (length l - 1)).

Lemma rseq_map_Ok : forall {A B} (f : A -> res B) (g : A -> B) l, (forall a, In a l -> f a = Ok (g a)) -> rseq (map f l) = Ok (map g l).
Proof.
  induction l as [|a l IH]; intros H; [reflexivity|]. cbn [map rseq]. rewrite (H a (or_introl eq_refl)). cbn [rbind].
  rewrite IH by (intros; apply H; right; auto). reflexivity.
Qed.
Lemma map2_map_map : forall {A B C D} (f : B -> C -> D) (g : A -> B) (h : A -> C) l, map2 f (map g l) (map h l) = map (fun a => f (g a) (h a)) l.
Proof. induction l as [|a l IH]; [reflexivity|]. cbn. rewrite IH. reflexivity. Qed.

Lemma cir_value : forall c alpha, ch_rows c <> [] -> 0 <= alpha <= 2 ->
  credible_interval_range c alpha = Ok (map (fun j => range1 (column j (ch_rows c)) alpha) (seq 0 (ch_cols c))).
Proof.
  intros c alpha Hr Ha. unfold credible_interval_range, np_quantiles.
  destruct (Rleb_spec 0 (alpha / 2)); [|lra]. destruct (Rleb_spec (alpha / 2) 1); [|lra].
  destruct (Rleb_spec 0 (1 - alpha / 2)); [|lra]. destruct (Rleb_spec (1 - alpha / 2) 1); [|lra]. cbn [andb].
  destruct (ch_rows c) as [|rr rows] eqn:E; [congruence|]. rewrite <- E.
  assert (NE : forall j, column j (ch_rows c) <> []) by (intros j; rewrite E; discriminate).
  rewrite (rseq_map_Ok _ (fun j => interp (rsort (column j (ch_rows c))) (alpha / 2 * INR (length (column j (ch_rows c)) - 1))))
    by (intros j _; apply np_quantile_Ok; [apply NE|lra]).
  cbn [rbind].
  rewrite (rseq_map_Ok _ (fun j => interp (rsort (column j (ch_rows c))) ((1 - alpha / 2) * INR (length (column j (ch_rows c)) - 1))))
    by (intros j _; apply np_quantile_Ok; [apply NE|lra]).
  cbn [rbind fst snd]. rewrite map2_map_map. reflexivity.
Qed.
Lemma cir_errors : forall c alpha,
  (alpha < 0 \/ 2 < alpha -> credible_interval_range c alpha = Raise ValueError) /\
  (0 <= alpha <= 2 -> ch_rows c = [] -> credible_interval_range c alpha = Raise IndexError).
Proof.
  intros c alpha. unfold credible_interval_range, np_quantiles.
  destruct (Rleb_spec 0 (alpha / 2)), (Rleb_spec (alpha / 2) 1), (Rleb_spec 0 (1 - alpha / 2)), (Rleb_spec (1 - alpha / 2) 1); cbn [andb rbind];
  split; intros; try lra; try reflexivity. rewrite H0. reflexivity.
Qed.
Lemma range_of_inv : forall c alpha j x, range_of c alpha j x ->
  0 <= alpha <= 2 /\ ch_rows c <> [] /\ (j < ch_cols c)%nat /\ x = range1 (column j (ch_rows c)) alpha.
Proof.
  intros c alpha j x (r & E & N). assert (Q := cir_errors c alpha).
  assert (A : 0 <= alpha <= 2).
  { destruct (Rlt_dec alpha 0); [rewrite (proj1 Q) in E by auto; discriminate|].
    destruct (Rlt_dec 2 alpha); [rewrite (proj1 Q) in E by auto; discriminate|lra]. }
  split; [exact A|]. assert (B : ch_rows c <> []) by (intros B; rewrite (proj2 Q A B) in E; discriminate). split; [exact B|].
  rewrite cir_value in E by auto. injection E as <-.
  assert (J : (j < ch_cols c)%nat).
  { assert (nth_error (map (fun j => range1 (column j (ch_rows c)) alpha) (seq 0 (ch_cols c))) j <> None) by congruence.
    apply nth_error_Some in H. rewrite map_length, seq_length in H. exact H. }
  split; [exact J|]. rewrite nth_error_map in N. 
  rewrite (nth_error_nth' _ 0%nat) in N by (rewrite seq_length; exact J). rewrite seq_nth in N by exact J. cbn in N. injection N as <-. reflexivity.
Qed.
Lemma range_of_intro : forall c alpha j, ch_rows c <> [] -> 0 <= alpha <= 2 -> (j < ch_cols c)%nat ->
  range_of c alpha j (range1 (column j (ch_rows c)) alpha).
Proof.
  intros c alpha j H1 H2 J. eexists. split; [apply cir_value; auto|]. rewrite nth_error_map.
  rewrite (nth_error_nth' _ 0%nat) by (rewrite seq_length; exact J). rewrite seq_nth by exact J. reflexivity.
Qed.
Lemma column_ne : forall c j, ch_rows c <> [] -> (0 < length (column j (ch_rows c)))%nat.
Proof. intros c j H. unfold column. rewrite map_length. destruct (ch_rows c); [congruence|cbn; lia]. Qed.

Lemma smallest_sorted : forall l m, smallest l m -> nth 0 (rsort l) 0 = m.
Proof.
  intros l m (I & H). assert (P := rsort_perm l). assert (N : (0 < length (rsort l))%nat).
  { rewrite rsort_length. destruct l; [contradiction|cbn; lia]. }
  apply Rle_antisym.
  - assert (I' := Permutation_in _ P I). apply In_nth with (d := 0) in I'. destruct I' as (i & Hi & <-).
    apply sorted_nth_le; [apply rsort_sorted|lia].
  - apply H. apply (Permutation_in _ (Permutation_sym P)). apply nth_In; exact N.
Qed.
Lemma largest_sorted : forall l m, largest l m -> nth (length l - 1) (rsort l) 0 = m.
Proof.
  intros l m (I & H). assert (P := rsort_perm l). assert (N : (0 < length l)%nat) by (destruct l; [contradiction|cbn; lia]).
  apply Rle_antisym.
  - apply H. apply (Permutation_in _ (Permutation_sym P)). apply nth_In. rewrite rsort_length. lia.
  - assert (I' := Permutation_in _ P I). apply In_nth with (d := 0) in I'. destruct I' as (i & Hi & <-). rewrite rsort_length in Hi.
    apply sorted_nth_le; [apply rsort_sorted|rewrite rsort_length; lia].
Qed.

(** ** C37 *)

(** when a result exists *)
Theorem C37_defined : forall c alpha,
  (ch_rows c <> [] -> 0 <= alpha <= 2 -> exists r, credible_interval_range c alpha = Ok r /\ length r = ch_cols c) /\
  (alpha < 0 \/ 2 < alpha -> credible_interval_range c alpha = Raise ValueError) /\
  (0 <= alpha <= 2 -> ch_rows c = [] -> credible_interval_range c alpha = Raise IndexError).
Proof.
  intros c alpha. split; [|apply cir_errors]. intros H1 H2. rewrite cir_value by auto. eexists. split; [reflexivity|].
  rewrite map_length, seq_length. reflexivity.
Qed.
Print Assumptions C37_defined.

(** the value: order statistics (any sorted rearrangement s of the samples of
    the parameter), linear between them *)
Theorem C37_value : forall c alpha j x s k t,
  let l := map (fun r => nth j r 0) (ch_rows c) in let n := length l in
  range_of c alpha j x -> Permutation l s -> Sorted Rle s ->
  (S k < n)%nat -> 0 <= t <= 1 -> (1 - alpha / 2) * INR (n - 1) = INR k + t ->
  x = ((1 - t) * nth k s 0 + t * nth (k + 1) s 0) - ((1 - t) * nth (n - 1 - k) s 0 + t * nth (n - 2 - k) s 0).
Proof.
  intros c alpha j x s k t l n R P S0 Hk Ht E. destruct (range_of_inv _ _ _ _ R) as (Ha & Hr & Hj & ->).
  fold (column j (ch_rows c)) in l. fold l. unfold range1. fold n. rewrite E.
  assert (Es : rsort l = s) by (rewrite (rsort_perm_eq _ _ P); apply rsort_of_sorted; exact S0). rewrite Es.
  assert (Ls : length s = n) by (unfold n; symmetry; apply Permutation_length; exact P).
  assert (E2 : alpha / 2 * INR (n - 1) = INR (n - 2 - k) + (1 - t)).
  { rewrite !minus_INR in * by lia. simpl INR in *. lra. }
  rewrite E2. rewrite !interp_segment by (lra || lia).
  replace (k + 1)%nat with (S k) by lia. replace (S (n - 2 - k)) with (n - 1 - k)%nat by lia. ring.
Qed.
Print Assumptions C37_value.

(** nonnegative and at most max - min; max - min at alpha = 0, 0 at alpha = 1 *)
Theorem C37_bounds : forall c alpha j x mn mx,
  range_of c alpha j x -> smallest (column j (ch_rows c)) mn -> largest (column j (ch_rows c)) mx ->
  (alpha <= 1 -> 0 <= x <= mx - mn) /\ (alpha = 0 -> x = mx - mn) /\ (alpha = 1 -> x = 0) /\ (1 <= alpha -> mn - mx <= x <= 0).
Proof.
  intros c alpha j x mn mx R Hmn Hmx. destruct (range_of_inv _ _ _ _ R) as (Ha & Hr & Hj & ->).
  apply smallest_sorted in Hmn. apply largest_sorted in Hmx. assert (N := column_ne c j Hr). set (l := column j (ch_rows c)) in *.
  assert (S0 := rsort_sorted l). assert (L := rsort_length l). unfold range1.
  assert (V1 := virtual_range (length l) (alpha / 2) ltac:(lra)). assert (V2 := virtual_range (length l) (1 - alpha / 2) ltac:(lra)).
  assert (B1 := interp_bounds (rsort l) (alpha / 2 * INR (length l - 1)) S0). rewrite L in B1. specialize (B1 N V1).
  assert (B2 := interp_bounds (rsort l) ((1 - alpha / 2) * INR (length l - 1)) S0). rewrite L in B2. specialize (B2 N V2).
  rewrite Hmn, Hmx in *. assert (P := pos_INR (length l - 1)).
  split; [|split; [|split]].
  - intros Hl. split; [|lra]. apply Rge_le, Rge_minus, Rle_ge. apply interp_mono; rewrite ?L; auto; try lra. nra.
  - intros ->. replace ((1 - 0 / 2) * INR (length l - 1)) with (INR (length l - 1)) by lra.
    replace (0 / 2 * INR (length l - 1)) with (INR 0) by (simpl; lra).
    assert (E := interp_last (rsort l)). rewrite L in E. rewrite E by exact N. rewrite interp_node by (rewrite L; exact N). rewrite Hmn, Hmx. reflexivity.
  - intros ->. replace (1 - 1 / 2) with (1 / 2) by lra. lra.
  - intros Hl. split; [lra|]. apply Rle_minus. apply interp_mono; rewrite ?L; auto; try lra. nra.
Qed.
Print Assumptions C37_bounds.

Theorem C37_monotone : forall c alpha beta j x y, alpha <= beta -> range_of c alpha j x -> range_of c beta j y -> y <= x.
Proof.
  intros c alpha beta j x y H R1 R2. destruct (range_of_inv _ _ _ _ R1) as (Ha & Hr & Hj & ->). destruct (range_of_inv _ _ _ _ R2) as (Hb & _ & _ & ->).
  assert (N := column_ne c j Hr). set (l := column j (ch_rows c)) in *. assert (S0 := rsort_sorted l). assert (L := rsort_length l). unfold range1.
  assert (P := pos_INR (length l - 1)).
  assert (A : interp (rsort l) (alpha / 2 * INR (length l - 1)) <= interp (rsort l) (beta / 2 * INR (length l - 1))).
  { apply interp_mono; rewrite ?L; auto; nra. }
  assert (B : interp (rsort l) ((1 - beta / 2) * INR (length l - 1)) <= interp (rsort l) ((1 - alpha / 2) * INR (length l - 1))).
  { apply interp_mono; rewrite ?L; auto; nra. }
  lra.
Qed.
Print Assumptions C37_monotone.

(** reordering the samples does not matter *)
Theorem C37_reorder : forall rows rows' n alpha, Permutation rows rows' ->
  credible_interval_range (mkChain rows n) alpha = credible_interval_range (mkChain rows' n) alpha.
Proof.
  intros rows rows' n alpha P. destruct (cir_errors (mkChain rows n) alpha) as (A1 & A2). destruct (cir_errors (mkChain rows' n) alpha) as (B1 & B2).
  destruct (Rlt_dec alpha 0); [rewrite A1, B1 by auto; reflexivity|]. destruct (Rlt_dec 2 alpha); [rewrite A1, B1 by auto; reflexivity|].
  assert (Ha : 0 <= alpha <= 2) by lra. cbn [ch_rows] in *.
  destruct rows as [|r rows].
  - apply Permutation_nil in P. subst. reflexivity.
  - destruct rows' as [|r' rows']; [symmetry in P; apply Permutation_nil in P; discriminate|].
    rewrite !cir_value by (cbn [ch_rows]; try discriminate; lra). f_equal. apply map_ext. intros j. unfold range1. cbn [ch_rows].
    assert (Q : Permutation (column j (r :: rows)) (column j (r' :: rows'))) by (apply Permutation_map; exact P).
    rewrite (rsort_perm_eq _ _ Q), (Permutation_length Q). reflexivity.
Qed.
Print Assumptions C37_reorder.

(** shifting the samples of a parameter by d and scaling them by a (of either
    sign) multiplies its range by |a| *)
Theorem C37_affine : forall c c' alpha j a d x y,
  column j (ch_rows c') = map (fun v => a * v + d) (column j (ch_rows c)) ->
  range_of c alpha j x -> range_of c' alpha j y -> y = Rabs a * x.
Proof.
  intros c c' alpha j a d x y E R1 R2. destruct (range_of_inv _ _ _ _ R1) as (Ha & Hr & Hj & ->). destruct (range_of_inv _ _ _ _ R2) as (_ & _ & _ & ->).
  assert (N := column_ne c j Hr). rewrite E. set (l := column j (ch_rows c)) in *. unfold range1. rewrite !map_length.
  assert (L := rsort_length l).
  assert (V1 := virtual_range (length l) (alpha / 2) ltac:(lra)). assert (V2 := virtual_range (length l) (1 - alpha / 2) ltac:(lra)).
  destruct (Rle_lt_dec 0 a) as [P|P].
  - rewrite rsort_map_mono by (intros; nra). rewrite !interp_map_affine by (rewrite ?L; auto). rewrite Rabs_right by lra. ring.
  - rewrite rsort_map_anti by (intros; nra). rewrite !interp_rev by (rewrite ?map_length, ?L; auto). rewrite !map_length, L.
    rewrite !interp_map_affine by (rewrite ?L; lia || lra). rewrite Rabs_left by lra.
    replace (INR (length l - 1) - (1 - alpha / 2) * INR (length l - 1)) with (alpha / 2 * INR (length l - 1)) by ring.
    replace (INR (length l - 1) - alpha / 2 * INR (length l - 1)) with ((1 - alpha / 2) * INR (length l - 1)) by ring. ring.
Qed.
Print Assumptions C37_affine.

(** three samples 4, 1, 2 of one parameter: range 3 at alpha=0, 1.5 at alpha=0.5, 0 at alpha=1 *)
Lemma c37_sorted : rsort [4; 1; 2] = [1; 2; 4].
Proof.
  rewrite (rsort_perm_eq [4; 1; 2] [1; 2; 4]).
  - apply rsort_of_sorted. repeat constructor; lra.
  - eapply perm_trans; [apply perm_swap|]. apply perm_skip. apply perm_swap.
Qed.
Example C37_case : range_of (mkChain [[4]; [1]; [2]] 1) (1 / 2) 0 (3 / 2) /\ range_of (mkChain [[4]; [1]; [2]] 1) 0 0 3 /\
  range_of (mkChain [[4]; [1]; [2]] 1) 1 0 0.
Proof.
  assert (I : forall alpha, 0 <= alpha <= 2 -> range_of (mkChain [[4]; [1]; [2]] 1) alpha 0 (range1 [4; 1; 2] alpha)).
  { intros alpha H. apply (range_of_intro (mkChain [[4]; [1]; [2]] 1) alpha 0); cbn; [discriminate|lra|lia]. }
  assert (V : forall alpha k t, (S k < 3)%nat -> 0 <= t <= 1 -> 0 <= alpha <= 2 -> (1 - alpha / 2) * 2 = INR k + t ->
    range1 [4; 1; 2] alpha = ((1 - t) * nth k [1; 2; 4] 0 + t * nth (k + 1) [1; 2; 4] 0) - ((1 - t) * nth (2 - k) [1; 2; 4] 0 + t * nth (1 - k) [1; 2; 4] 0)).
  { intros alpha k t Hk Ht Ha E. apply (C37_value (mkChain [[4]; [1]; [2]] 1) alpha 0 _ [1; 2; 4] k t (I alpha Ha)); auto.
    - rewrite <- c37_sorted. apply rsort_perm.
    - repeat constructor; lra. }
  split; [|split].
  - replace (3 / 2) with (range1 [4; 1; 2] (1 / 2)); [apply I; lra|]. rewrite (V (1/2) 1%nat (1/2)); simpl; lra || lia.
  - replace 3 with (range1 [4; 1; 2] 0); [apply I; lra|]. rewrite (V 0 1%nat 1); simpl; lra || lia.
  - replace (range_of (mkChain [[4]; [1]; [2]] 1) 1 0 0) with (range_of (mkChain [[4]; [1]; [2]] 1) 1 0 (range1 [4; 1; 2] 1)); [apply I; lra|].
    f_equal. rewrite (V 1 1%nat 0); simpl; lra || lia.
Qed.

(** ** C38 *)

(** a threshold exists iff 0 <= alpha <= 1 and there is a sample *)
Theorem C38_defined : forall logpis alpha,
  (logpis <> [] -> 0 <= alpha <= 1 -> exists t, credible_region_threshold logpis alpha = Ok t) /\
  (alpha < 0 \/ 1 < alpha -> credible_region_threshold logpis alpha = Raise ValueError) /\
  (0 <= alpha <= 1 -> credible_region_threshold [] alpha = Raise IndexError).
Proof.
  intros l alpha. unfold credible_region_threshold. split; [|split].
  - intros H1 H2. rewrite np_quantile_Ok by (auto; lra). eauto.
  - intros H. unfold np_quantile. destruct (Rleb_spec 0 (1 - alpha)), (Rleb_spec (1 - alpha) 1); cbn [andb]; auto; lra.
  - intros H. unfold np_quantile. destruct (Rleb_spec 0 (1 - alpha)), (Rleb_spec (1 - alpha) 1); cbn [andb]; auto; lra.
Qed.
Print Assumptions C38_defined.

Lemma threshold_inv : forall l alpha t, credible_region_threshold l alpha = Ok t ->
  l <> [] /\ 0 <= alpha <= 1 /\ t = interp (rsort l) ((1 - alpha) * INR (length l - 1)).
Proof.
  intros l alpha t E. destruct (C38_defined l alpha) as (_ & A & B).
  destruct (Rlt_dec alpha 0); [rewrite A in E by auto; discriminate|]. destruct (Rlt_dec 1 alpha); [rewrite A in E by auto; discriminate|].
  destruct l as [|x l]; [rewrite B in E by lra; discriminate|]. split; [discriminate|]. split; [lra|].
  unfold credible_region_threshold in E. rewrite np_quantile_Ok in E by (try discriminate; lra). injection E as <-. reflexivity.
Qed.

(** the part that holds: more than (1-alpha)(n-1) samples are in the region *)
Theorem C38_enough_samples : forall logpis alpha t, credible_region_threshold logpis alpha = Ok t ->
  (1 - alpha) * INR (length logpis - 1) < INR (count (fun x => in_credible_region x t) logpis).
Proof.
  intros l alpha t E. destruct (threshold_inv _ _ _ E) as (Hl & Ha & ->).
  assert (N : (0 < length l)%nat) by (destruct l; [congruence|cbn; lia]).
  set (v := (1 - alpha) * INR (length l - 1)). assert (Hv : 0 <= v <= INR (length l - 1)) by (apply virtual_range; lra).
  destruct (floor_parts v (proj1 Hv)) as (k & t & Ev & Ht & _).
  assert (Hk : (k < length l)%nat). { apply INR_lt. assert (Q := INR_lt). rewrite minus_INR in Hv by lia. simpl in Hv. lra. }
  destruct (order_statistic l k 0 Hk) as (_ & C). 
  assert (M : nth k (rsort l) 0 <= interp (rsort l) v).
  { rewrite <- (interp_node (rsort l) k) by (rewrite rsort_length; exact Hk). apply interp_mono; rewrite ?rsort_length; auto; try lra; [apply rsort_sorted|apply pos_INR]. }
  assert (D : (count (fun a => Rleb a (nth k (rsort l) 0%R)) l <= count (fun x => in_credible_region x (interp (rsort l) v)) l)%nat).
  { apply count_mono. intros aa _ Q. apply Rleb_true in Q. apply Rleb_true. lra. }
  assert (Q := le_INR (S k) (count (fun x => in_credible_region x (interp (rsort l) v)) l) ltac:(lia)). rewrite S_INR in Q. lra.
Qed.
Print Assumptions C38_enough_samples.

(** membership is downward closed *)
Theorem C38_downward_closed : forall x y t, in_credible_region x t = true -> y <= x -> in_credible_region y t = true.
Proof. intros x y t H1 H2. apply Rleb_true in H1. apply Rleb_true. lra. Qed.
Print Assumptions C38_downward_closed.

(** a unique largest log posterior is outside the region for every alpha > 0,
    and all samples are inside at alpha = 0 *)
Theorem C38_map_excluded : forall logpis alpha t m l1 l2, credible_region_threshold logpis alpha = Ok t ->
  logpis = l1 ++ m :: l2 -> (l1 ++ l2 <> []) -> (forall x, In x (l1 ++ l2) -> x < m) ->
  (0 < alpha -> in_credible_region m t = false) /\ (alpha = 0 -> forall x, In x logpis -> in_credible_region x t = true).
Proof.
  intros l alpha t m l1 l2 E El NE H. destruct (threshold_inv _ _ _ E) as (Hl & Ha & ->).
  assert (P : Permutation l (rsort (l1 ++ l2) ++ [m])).
  { rewrite El. eapply perm_trans; [symmetry; apply Permutation_middle|]. eapply perm_trans; [apply Permutation_cons_append|].
    apply Permutation_app_tail. apply rsort_perm. }
  assert (S0 : Sorted Rle (rsort (l1 ++ l2) ++ [m])).
  { assert (S1 := rsort_sorted (l1 ++ l2)). assert (Q : forall x, In x (rsort (l1 ++ l2)) -> x <= m).
    { intros x Hx. left. apply H. apply (Permutation_in _ (Permutation_sym (rsort_perm _)) Hx). }
    clear - S1 Q. induction (rsort (l1 ++ l2)) as [|a s IH]; [repeat constructor|]. cbn [app]. inversion S1; subst. constructor.
    - apply IH; auto. intros x Hx. apply Q. right; auto.
    - destruct s as [|b s]; cbn [app]; constructor; [apply Q; left; auto|]. inversion H2; auto. }
  assert (Es : rsort l = rsort (l1 ++ l2) ++ [m]) by (rewrite (rsort_perm_eq _ _ P); apply rsort_of_sorted; exact S0).
  set (s := rsort (l1 ++ l2)) in *. assert (Ls : length s = length (l1 ++ l2)) by apply rsort_length.
  assert (Ll : length l = S (length s)) by (rewrite (Permutation_length P), app_length; cbn; lia).
  assert (N : (0 < length s)%nat) by (rewrite Ls; destruct (l1 ++ l2); [congruence|cbn; lia]).
  assert (Lm : length (rsort l) = S (length s)) by (rewrite rsort_length; exact Ll).
  assert (Top : nth (length s) (rsort l) 0 = m) by (rewrite Es, app_nth2, Nat.sub_diag by lia; reflexivity).
  assert (Below : nth (length s - 1) (rsort l) 0 < m).
  { rewrite Es, app_nth1 by lia. apply H. apply (Permutation_in _ (Permutation_sym (rsort_perm _))). apply nth_In. fold s. lia. }
  rewrite Ll. replace (S (length s) - 1)%nat with (length s) by lia.
  assert (Pn := pos_INR (length s)). assert (Pn1 : 1 <= INR (length s)) by (apply (le_INR 1); lia).
  split.
  - intros Hp. unfold in_credible_region. destruct (Rleb_spec m (interp (rsort l) ((1 - alpha) * INR (length s)))) as [Q|]; [exfalso|reflexivity].
    assert (V : 0 <= (1 - alpha) * INR (length s) < INR (length s)) by nra.
    destruct (index_cases (length (rsort l)) ((1 - alpha) * INR (length s))) as [(k & t & Hk & Ht & Ev)|Ev]; rewrite ?Lm; try lia.
    + replace (S (length s) - 1)%nat with (length s) by lia. lra.
    + rewrite Ev in Q. rewrite interp_segment in Q by (lra || lia).
      assert (A1 : nth k (rsort l) 0 <= nth (length s - 1) (rsort l) 0) by (apply sorted_nth_le; [apply rsort_sorted|lia]).
      assert (A2 : nth (S k) (rsort l) 0 <= m) by (rewrite <- Top; apply sorted_nth_le; [apply rsort_sorted|lia]). nra.
    + rewrite Lm in Ev. replace (S (length s) - 1)%nat with (length s) in Ev by lia. lra.
  - intros -> x Hx. apply Rleb_true. replace ((1 - 0) * INR (length s)) with (INR (length s)) by lra.
    rewrite interp_node by lia. rewrite Top. rewrite El in Hx. apply in_app_or in Hx. destruct Hx as [Hx|[->|Hx]]; [left; apply H, in_or_app; auto|lra|left; apply H, in_or_app; auto].
Qed.
Print Assumptions C38_map_excluded.

(** exact size for distinct log posteriors: floor((1-alpha)(n-1)) + 1 samples *)
Theorem C38_exact_count : forall logpis alpha t k, credible_region_threshold logpis alpha = Ok t -> NoDup logpis ->
  INR k <= (1 - alpha) * INR (length logpis - 1) < INR (k + 1) ->
  count (fun x => in_credible_region x t) logpis = (k + 1)%nat.
Proof.
  intros l alpha t k E ND Hk. destruct (threshold_inv _ _ _ E) as (Hl & Ha & ->).
  assert (N : (0 < length l)%nat) by (destruct l; [congruence|cbn; lia]).
  set (v := (1 - alpha) * INR (length l - 1)) in *. assert (Hv : 0 <= v <= INR (length l - 1)) by (apply virtual_range; lra).
  rewrite plus_INR in Hk. simpl INR in Hk.
  assert (Hkl : (k < length l)%nat) by (apply INR_lt; rewrite minus_INR in Hv by lia; simpl in Hv; lra).
  set (s := rsort l). assert (S0 : Sorted Rle s) by apply rsort_sorted. assert (Ls : length s = length l) by apply rsort_length.
  assert (P : Permutation l s) by apply rsort_perm. assert (NDs : NoDup s) by (eapply Permutation_NoDup; eauto).
  assert (ST : forall i j, (i < j < length s)%nat -> nth i s 0 < nth j s 0).
  { intros i j Hij. destruct (sorted_nth_le s i j 0 S0 ltac:(lia)) as [Q|Q]; [exact Q|]. exfalso.
    assert (i = j) by (apply (proj1 (NoDup_nth s 0) NDs); auto; lia). lia. }
  assert (Vlo : nth k s 0 <= interp s v).
  { rewrite <- (interp_node s k) by (rewrite Ls; exact Hkl). apply interp_mono; rewrite ?Ls; auto; try lra. apply pos_INR. }
  assert (Vhi : forall i, (k < i < length s)%nat -> interp s v < nth i s 0).
  { intros i Hi. destruct (index_cases (length s) v) as [(k' & t & Hk' & Ht & Ev)|Ev]; rewrite ?Ls; auto.
    - assert (k' = k).
      { assert ((k < k' + 1)%nat) by (apply INR_lt; rewrite plus_INR; simpl; lra). assert ((k' < k + 1)%nat) by (apply INR_lt; rewrite plus_INR; simpl; lra). lia. }
      subst k'. rewrite Ev, interp_segment by (lra || lia). assert (A := ST k (S k) ltac:(lia)).
      assert (B : nth (S k) s 0 <= nth i s 0) by (apply sorted_nth_le; auto; lia). nra.
    - exfalso. assert (Q : (length s - 1 < k + 1)%nat) by (apply INR_lt; rewrite plus_INR; simpl; lra). lia. }
  rewrite (count_perm _ _ _ P). assert (F := firstn_skipn (k + 1) s). 
  assert (CF : forall p : R -> bool, count p s = (count p (firstn (k + 1) s) + count p (skipn (k + 1) s))%nat) by (intros p; rewrite <- count_app, F; reflexivity).
  fold s. rewrite CF.
  rewrite count_all, count_none.
  - rewrite firstn_length, Ls. lia.
  - intros a Hx. apply In_nth with (d := 0) in Hx. destruct Hx as (i & Hi & <-). rewrite skipn_length in Hi.
    unfold in_credible_region. destruct (Rleb_spec (nth i (skipn (k + 1) s) 0) (interp s v)) as [Q|]; [exfalso|reflexivity].
    assert (E1 : nth i (skipn (k + 1) s) 0 = nth (k + 1 + i) s 0).
    { rewrite <- F at 2. rewrite app_nth2 by (rewrite firstn_length; lia). f_equal. rewrite firstn_length. lia. }
    rewrite E1 in Q. assert (A := Vhi (k + 1 + i)%nat ltac:(lia)). lra.
  - intros a Hx. apply In_nth with (d := 0) in Hx. destruct Hx as (i & Hi & <-). rewrite firstn_length in Hi.
    assert (E1 : nth i (firstn (k + 1) s) 0 = nth i s 0).
    { rewrite <- F at 2. rewrite app_nth1 by (rewrite firstn_length; lia). reflexivity. }
    rewrite E1. apply Rleb_true. assert (B : nth i s 0 <= nth k s 0) by (apply sorted_nth_le; auto; lia). lra.
Qed.
Print Assumptions C38_exact_count.

(** A highest-posterior-density region would contain every sample whose log
    posterior is at least that of a member.  The code's region does not. *)
Theorem C38_hpd_refuted : exists logpis alpha t x y, credible_region_threshold logpis alpha = Ok t /\ 0 < alpha < 1 /\
  In x logpis /\ In y logpis /\ in_credible_region x t = true /\ x < y /\ in_credible_region y t = false /\
  (forall z, In z logpis -> z <= y).
Proof.
  destruct (C38_defined [0; 1] (1 / 2)) as (A & _). destruct A as (t & E); [discriminate|lra|].
  exists [0; 1], (1 / 2), t, 0, 1. split; [exact E|]. split; [lra|]. split; [left; auto|]. split; [right; left; auto|].
  assert (M : in_credible_region 1 t = false).
  { apply (C38_map_excluded [0; 1] (1 / 2) t 1 [0] [] E); [reflexivity|discriminate|intros x [<-|[]]; lra|lra]. }
  split; [|split; [lra|split; [exact M|intros z [<-|[<-|[]]]; lra]]].
  destruct (in_credible_region 0 t) eqn:Q; [reflexivity|]. exfalso.
  assert (C := C38_enough_samples _ _ _ E). rewrite count_none in C.
  - cbn in C. lra.
  - intros a [<-|[<-|[]]]; auto.
Qed.
Print Assumptions C38_hpd_refuted.

Example C38_case : exists t, credible_region_threshold [-1; -3; -2] (1 / 2) = Ok t /\
  count (fun x => in_credible_region x t) [-1; -3; -2] = 2%nat /\ in_credible_region (-1) t = false.
Proof.
  destruct (C38_defined [-1; -3; -2] (1 / 2)) as (A & _). destruct A as (t & E); [discriminate|lra|]. exists t. split; [exact E|]. split.
  - apply (C38_exact_count _ _ _ 1 E).
    + repeat constructor; cbn; intros Q; repeat (destruct Q as [Q|Q]; [lra|]); auto.
    + cbn. lra.
  - apply (C38_map_excluded _ _ t (-1) [] [-3; -2] E); [reflexivity|discriminate|intros x [<-|[<-|[]]]; lra|lra].
Qed.

(** ** C39 *)

Lemma py_slice_any : forall {A} (l : list A) a b, (a <= b)%nat ->
  py_slice l (Some (Z.of_nat a)) (Some (Z.of_nat b)) = firstn (b - a) (skipn a l).
Proof.
  intros A l a b H. unfold py_slice, slice_bound. destruct (Z.ltb_spec (Z.of_nat a) 0); [lia|]. destruct (Z.ltb_spec (Z.of_nat b) 0); [lia|].
  destruct (le_lt_dec (length l) a) as [Q|Q].
  - rewrite !skipn_all2 by lia. rewrite !firstn_nil. reflexivity.
  - rewrite (Z.min_l (Z.of_nat a)) by lia. rewrite Nat2Z.id. destruct (le_lt_dec b (length l)).
    + rewrite Z.min_l by lia. f_equal. lia.
    + rewrite Z.min_r by lia. rewrite !firstn_all2; auto; rewrite skipn_length; lia.
Qed.
Lemma nth_slice : forall (l : list R) a m j, (j < m)%nat -> nth j (firstn m (skipn a l)) 0 = nth (a + j) l 0.
Proof.
  induction l as [|x l IH]; intros a m j H; [rewrite skipn_nil, firstn_nil; destruct j, a; reflexivity|].
  destruct a; cbn [skipn].
  - clear IH. cbn [plus]. revert m j H. generalize (x :: l) as q. induction q as [|y q IHq]; intros m j H; [rewrite firstn_nil; destruct j; reflexivity|].
    destruct m; [lia|]. destruct j; [reflexivity|]. cbn. apply IHq. lia.
  - cbn [plus nth]. apply IH; exact H.
Qed.
Lemma slice_cir : forall c alpha a b r, (a <= b)%nat -> credible_interval_range c alpha = Ok r ->
  credible_interval_range (slice_cols c (Z.of_nat a) (Z.of_nat b)) alpha = Ok (firstn (b - a) (skipn a r)).
Proof.
  intros c alpha a b r Hab E. destruct (cir_errors c alpha) as (Q1 & Q2).
  assert (Ha : 0 <= alpha <= 2).
  { destruct (Rlt_dec alpha 0); [rewrite Q1 in E by auto; discriminate|]. destruct (Rlt_dec 2 alpha); [rewrite Q1 in E by auto; discriminate|lra]. }
  assert (Hr : ch_rows c <> []) by (intros B; rewrite (Q2 Ha B) in E; discriminate).
  rewrite cir_value in E by auto. injection E as <-.
  rewrite cir_value; auto.
  2:{ unfold slice_cols. cbn [ch_rows]. destruct (ch_rows c); [congruence|discriminate]. }
  f_equal. unfold slice_cols. cbn [ch_rows ch_cols]. rewrite py_slice_any by exact Hab. rewrite firstn_length, skipn_length, repeat_length.
  rewrite skipn_map, firstn_map. 
  assert (S1 : forall n m k, skipn k (seq m n) = seq (m + k) (n - k)).
  { clear. induction n as [|n IH]; intros m [|k]; cbn; rewrite ?Nat.add_0_r; auto. rewrite IH. f_equal; lia. }
  assert (S2 : forall n m k, firstn k (seq m n) = seq m (Nat.min k n)).
  { clear. induction n as [|n IH]; intros m [|k]; cbn; auto. rewrite IH. reflexivity. }
  rewrite S1, S2. cbn [plus].
  assert (S3 : forall n k, seq k n = map (fun j => (k + j)%nat) (seq 0 n)).
  { clear. induction n as [|n IH]; intros k; [reflexivity|]. cbn [seq map]. rewrite Nat.add_0_r. f_equal. rewrite IH, <- seq_shift, map_map. apply map_ext. intros; lia. }
  rewrite (S3 _ a), map_map. apply map_ext_in. intros j Hj. apply in_seq in Hj.
  assert (CE : column j (map (fun r => py_slice r (Some (Z.of_nat a)) (Some (Z.of_nat b))) (ch_rows c)) = column (a + j) (ch_rows c)).
  { unfold column. rewrite map_map. apply map_ext. intros r. rewrite py_slice_any by exact Hab. apply nth_slice. lia. }
  rewrite CE. reflexivity.
Qed.
Lemma slice_cir_err : forall c alpha a b e, credible_interval_range c alpha = Raise e ->
  credible_interval_range (slice_cols c a b) alpha = Raise e.
Proof.
  intros c alpha a b e E. destruct (cir_errors c alpha) as (Q1 & Q2). destruct (cir_errors (slice_cols c a b) alpha) as (P1 & P2).
  destruct (Rlt_dec alpha 0); [rewrite Q1 in E by auto; rewrite P1 by auto; exact E|].
  destruct (Rlt_dec 2 alpha); [rewrite Q1 in E by auto; rewrite P1 by auto; exact E|].
  assert (Ha : 0 <= alpha <= 2) by lra. destruct (ch_rows c) eqn:Er.
  - rewrite (Q2 Ha) in E by reflexivity. rewrite P2; auto. unfold slice_cols. cbn [ch_rows]. rewrite Er. reflexivity.
  - rewrite cir_value in E; auto; [discriminate|rewrite Er; discriminate].
Qed.

Definition total_size (bls : list nat) : nat := fold_right (fun b acc => (b * (2 * b - 1) + acc)%nat) 0%nat bls.

Lemma wavelet_ranges_ok : forall bls c alpha r start, credible_interval_range c alpha = Ok r ->
  (start + total_size bls <= length r)%nat ->
  exists maps, wavelet_ranges c alpha start bls = Ok maps /\
    Forall2 (fun b m => mp_rows m = b /\ mp_cols m = (2 * b - 1)%nat /\ length (mp_buf m) = (b * (2 * b - 1))%nat) bls maps /\
    List.concat (map mp_buf maps) = firstn (total_size bls) (skipn start r).
Proof.
  induction bls as [|b bls IH]; intros c alpha r start E L; cbn [wavelet_ranges total_size fold_right] in *.
  - exists []. split; [reflexivity|]. split; [constructor|]. reflexivity.
  - fold (total_size bls) in *. unfold sample_length, reshape2. remember (b * (2 * b - 1))%nat as len eqn:Hlen.
    rewrite (slice_cir c alpha start (start + len) r) by (try apply Nat.le_add_r; exact E). cbn [rbind].
    replace (start + len - start)%nat with len by lia.
    assert (Lq : length (firstn len (skipn start r)) = len) by (rewrite firstn_length, skipn_length; lia).
    rewrite Lq, Nat.eqb_refl. cbn [rbind].
    destruct (IH c alpha r (start + len)%nat E ltac:(lia)) as (maps & E' & F & Cc).
    rewrite E'. cbn [rbind]. eexists. split; [reflexivity|]. split; [constructor; [cbn [mp_rows mp_cols mp_buf]; rewrite <- Hlen; auto|exact F]|].
    cbn [map List.concat mp_buf]. rewrite Cc.
    assert (SK : skipn (start + len) r = skipn len (skipn start r)).
    { clear. revert r. induction start as [|s IHs]; intros r; [reflexivity|]. destruct r; [rewrite !skipn_nil; reflexivity|]. cbn [plus skipn]. apply IHs. }
    rewrite SK. generalize (skipn start r) len (total_size bls). clear.
    intros q m. revert q. induction m as [|m IHm]; intros q n; [reflexivity|]. destruct q; [rewrite ?skipn_nil, ?firstn_nil; reflexivity|].
    cbn. f_equal. apply IHm.
Qed.
Lemma wavelet_ranges_short : forall bls c alpha r start, credible_interval_range c alpha = Ok r -> (forall b, In b bls -> (1 <= b)%nat) ->
  bls <> [] -> (length r < start + total_size bls)%nat -> wavelet_ranges c alpha start bls = Raise ValueError.
Proof.
  induction bls as [|b bls IH]; intros c alpha r start E P NE L; [congruence|]. cbn [wavelet_ranges total_size fold_right] in *.
  fold (total_size bls) in *. unfold sample_length, reshape2. remember (b * (2 * b - 1))%nat as len eqn:Hlen.
  rewrite (slice_cir c alpha start (start + len) r) by (try apply Nat.le_add_r; exact E). cbn [rbind].
  replace (start + len - start)%nat with len by lia.
  rewrite firstn_length, skipn_length. assert (B := P b (or_introl eq_refl)).
  destruct (Nat.eqb_spec (Nat.min len (length r - start)) len) as [Q|Q]; [|reflexivity]. cbn [rbind].
  assert (0 < len)%nat by (rewrite Hlen; nia).
  rewrite (IH c alpha r (start + len)%nat E); [reflexivity| |  |lia].
  - intros b' Hb'. apply P. right; exact Hb'.
  - intros ->. cbn in L. lia.
Qed.

(** one (bl, 2bl-1) map per scale; flattened and concatenated they are the
    ranges of the leading sum of bl(2bl-1) parameters, in order *)
Theorem C39_partition : forall c L til alpha bls r, multires_bandlimits L til = Ok bls -> credible_interval_range c alpha = Ok r ->
  (total_size bls <= ch_cols c)%nat ->
  exists maps, wavelet_credible_interval_range c L til alpha = Ok maps /\
    Forall2 (fun b m => mp_rows m = b /\ mp_cols m = (2 * b - 1)%nat /\ length (mp_buf m) = (b * (2 * b - 1))%nat) bls maps /\
    List.concat (map mp_buf maps) = firstn (total_size bls) r.
Proof.
  intros c L til alpha bls r Hb E Hs. unfold wavelet_credible_interval_range. rewrite Hb. cbn [rbind].
  assert (Lr : length r = ch_cols c).
  { destruct (cir_errors c alpha) as (Q1 & Q2).
    destruct (Rlt_dec alpha 0); [rewrite Q1 in E by auto; discriminate|]. destruct (Rlt_dec 2 alpha); [rewrite Q1 in E by auto; discriminate|].
    destruct (C37_defined c alpha) as (A & _). destruct A as (r' & E' & L'); [intros B; rewrite Q2 in E by (auto; lra); discriminate|lra|]. congruence. }
  apply (wavelet_ranges_ok bls c alpha r 0 E). lia.
Qed.
Print Assumptions C39_partition.

Theorem C39_errors : forall c L til alpha,
  (forall e, multires_bandlimits L til = Raise e -> wavelet_credible_interval_range c L til alpha = Raise e) /\
  (forall bls e, multires_bandlimits L til = Ok bls -> credible_interval_range c alpha = Raise e ->
     wavelet_credible_interval_range c L til alpha = Raise e) /\
  (forall bls r, multires_bandlimits L til = Ok bls -> credible_interval_range c alpha = Ok r -> (ch_cols c < total_size bls)%nat ->
     wavelet_credible_interval_range c L til alpha = Raise ValueError).
Proof.
  intros c L til alpha. unfold wavelet_credible_interval_range. split; [|split].
  - intros e ->. reflexivity.
  - intros bls e Hb E. rewrite Hb. cbn [rbind]. destruct bls as [|b bls].
    + exfalso. unfold multires_bandlimits in Hb. destruct (rseq (map (m0_part L) (psi_cols til))); cbn [rbind] in Hb; [|discriminate].
      destruct (Nat.eqb (length (phi_l til)) L); [|discriminate]. cbn [map rseq rbind] in Hb. destruct (bandlimit_of (phi_l til)); cbn [rbind] in Hb; [|discriminate].
      destruct (rseq (map bandlimit_of a)); discriminate.
    + cbn [wavelet_ranges]. rewrite (slice_cir_err _ _ _ _ _ E). reflexivity.
  - intros bls r Hb E Hs. rewrite Hb. cbn [rbind].
    assert (Lr : length r = ch_cols c).
    { destruct (cir_errors c alpha) as (Q1 & Q2).
      destruct (Rlt_dec alpha 0); [rewrite Q1 in E by auto; discriminate|]. destruct (Rlt_dec 2 alpha); [rewrite Q1 in E by auto; discriminate|].
      destruct (C37_defined c alpha) as (A & _). destruct A as (r' & E' & L'); [intros B; rewrite Q2 in E by (auto; lra); discriminate|lra|]. congruence. }
    apply (wavelet_ranges_short bls c alpha r 0 E).
    + intros b Hbb. eapply bandlimits_pos; eauto.
    + intros ->. cbn in Hs. lia.
    + lia.
Qed.
Print Assumptions C39_errors.

(** two scales (bl = 1, 2) of a chain with 7 parameters *)
Example C39_case : forall x : R, exists maps,
  wavelet_ranges (mkChain [[0; 0; 0; 0; 0; 0; 0]; [x; 2; 3; 4; 5; 6; 7]] 7) 0 0 [1; 2]%nat = Ok maps /\
  map (fun m => (mp_rows m, mp_cols m)) maps = [(1, 1); (2, 3)]%nat /\
  List.concat (map mp_buf maps) = firstn 7 (match credible_interval_range (mkChain [[0; 0; 0; 0; 0; 0; 0]; [x; 2; 3; 4; 5; 6; 7]] 7) 0 with Ok r => r | _ => [] end).
Proof.
  intros x. set (c := mkChain _ 7). destruct (C37_defined c 0) as (A & _). destruct A as (r & E & L); [discriminate|lra|].
  destruct (wavelet_ranges_ok [1; 2]%nat c 0 r 0 E) as (maps & E' & F & Cc); [rewrite L; cbn; lia|].
  exists maps. split; [exact E'|]. rewrite E. split; [|exact Cc].
  inversion F as [|? m1 ? l1 (R1 & S1 & _) F1]; subst. inversion F1 as [|? m2 ? l2 (R2 & S2 & _) F2]; subst. inversion F2; subst.
  cbn [map]. rewrite R1, S1, R2, S2. reflexivity.
Qed.
