(** C68: uncertainties of chains in floating point. *)
From Coq Require Import List ZArith Lia Bool Reals Lra Permutation Sorted.
From Verif Require Import PyBase PyBaseFacts CVec RSort Thresh Utils UtilsProof Transforms Uncertainty UncProof P_Unc
  Ieee FloatOps FloatUnc RoundProof P_FloatOps FloatUncProof.
Import ListNotations.
Open Scope R_scope.

(** ** vocabulary *)
(** a copy of the samples in order, NaN last *)
Definition ordered (a s : fvec) : Prop := Permutation a s /\ Sorted (fun x y => y = NaN \/ fle x y) s.
(** the virtual index of the quantile q of n samples, rounded, lies between k and
    k + 1; g is its rounded distance from k *)
Definition position (rnd : R -> float) (n : nat) (q : R) (k : nat) (g : R) : Prop :=
  (S k < n)%nat /\ exists w, rnd (INR (n - 1) * q) = Fin w /\ INR k <= w < INR k + 1 /\ rnd (w - INR k) = Fin g.
(** it lies at the last sample *)
Definition at_top (rnd : R -> float) (n : nat) (q : R) : Prop := fle (Fin (INR (n - 1))) (rnd (INR (n - 1) * q)).
(** the range reported for parameter j is x *)
Definition f_range_of (rnd : R -> float) (rows : list fvec) (cols : nat) (alpha : float) (j : nat) (x : float) : Prop :=
  exists r, f_range rnd rows cols alpha = Ok r /\ nth_error r j = Some x.
Definition infinite (x : float) : Prop := x = PInf \/ x = NInf.

(** ** lemmas *)
Lemma ordered_sort : forall a s, ordered a s -> f_sort a = s.
Proof.
  intros a s (P & S0). apply f_sort_of; [exact P|]. clear P. induction S0 as [|x l S1 IH H]; constructor; auto.
  destruct H as [|y l H]; constructor. destruct H as [-> | H]; [destruct x; exact I|]. destruct x, y; cbn in *; auto; contradiction.
Qed.
Lemma fleb_true : forall a b, fleb a b = true <-> fle a b.
Proof. intros [x| | |] [y| | |]; cbn; try destruct (Rle_dec x y); split; intros; try discriminate; try contradiction; auto. Qed.
Lemma valid_fin : forall q, 0 <= q <= 1 -> f_valid (Fin q) = true.
Proof. intros q H. unfold f_valid. cbn. destruct (Rle_dec 0 q), (Rle_dec q 1); auto; lra. Qed.
Lemma valid_inv : forall q, f_valid q = true -> exists r, q = Fin r /\ 0 <= r <= 1.
Proof.
  intros q H. unfold f_valid in H. apply andb_true_iff in H. destruct H as (H1 & H2). apply fleb_true in H1. apply fleb_true in H2.
  destruct q as [r| | |]; cbn in *; try contradiction. eauto.
Qed.
Lemma quantile_cases : forall rnd F n q, rounding rnd F -> (0 < n)%nat -> 0 <= q <= 1 ->
  at_top rnd n q \/ exists k g, position rnd n q k g /\ 0 <= g <= 1.
Proof.
  intros rnd F n q H Hn Hq. unfold at_top. assert (P := pos_INR (n - 1)).
  assert (Z0 := ro_mono _ _ H 0 (INR (n - 1) * q) ltac:(nra)). rewrite (ro_fix _ _ H 0 (ro_zero _ _ H)) in Z0.
  destruct (rnd (INR (n - 1) * q)) as [w| | |] eqn:E; cbn in Z0; try contradiction; [|left; exact I].
  destruct (Rle_dec (INR (n - 1)) w) as [L|L]; [left; exact L|]. right.
  destruct (floor_parts w Z0) as (k & t & E1 & Ht & _).
  assert (Hk : (S k < n)%nat). { apply INR_lt. assert (Q : (k < n - 1)%nat) by (apply INR_lt; lra). apply lt_INR. lia. }
  assert (G0 := ro_mono _ _ H 0 (w - INR k) ltac:(lra)). rewrite (ro_fix _ _ H 0 (ro_zero _ _ H)) in G0.
  assert (G1 := ro_mono _ _ H (w - INR k) 1 ltac:(lra)). rewrite (ro_fix _ _ H 1 (ro_one _ _ H)) in G1.
  destruct (rnd (w - INR k)) as [g| | |] eqn:Eg; cbn in G0, G1; try contradiction.
  exists k, g. split; [|lra]. split; [exact Hk|]. exists w. split; [exact E|]. split; [lra|exact Eg].
Qed.
Lemma at_top_value : forall rnd a q s, a <> [] -> 0 <= q <= 1 -> ordered a s -> at_top rnd (length a) q ->
  exists v, f_quantile rnd a (Fin q) = Ok (if f_is_nan (nth (length a - 1) s NaN) then NaN else f_lerp rnd (nth (length a - 1) s NaN) (nth (length a - 1) s NaN) v) /\
            v = fsub rnd (rnd (INR (length a - 1) * q)) (Fin (-1)).
Proof.
  intros rnd a q s Ha Hq O T. eexists. split; [|reflexivity]. rewrite <- (ordered_sort _ _ O). apply quantile_top; auto using valid_fin.
  cbn [fmul]. now apply fleb_true.
Qed.
Lemma position_value : forall rnd a q s k g, 0 <= q <= 1 -> ordered a s -> position rnd (length a) q k g ->
  f_quantile rnd a (Fin q) = Ok (if f_is_nan (nth (length a - 1) s NaN) then NaN else f_lerp rnd (nth k s NaN) (nth (S k) s NaN) (Fin g)).
Proof.
  intros rnd a q s k g Hq O (Hk & w & Ew & Hw & Eg). rewrite <- (ordered_sort _ _ O), <- Eg.
  apply quantile_mid; auto using valid_fin.
Qed.
Lemma sort_ordered : forall a, ordered a (f_sort a).
Proof.
  intros a. split; [apply f_sort_perm|]. assert (H := f_sort_sorted a). induction H as [|x l S1 IH H]; constructor; auto.
  destruct H as [|y l H]; constructor. destruct x, y; cbn in *; auto.
Qed.
Lemma last_not_nan : forall a s, ordered a s -> ~ In NaN a -> a <> [] -> f_is_nan (nth (length a - 1) s NaN) = false.
Proof.
  intros a s O H Ha. rewrite <- (ordered_sort _ _ O). assert (Q := no_nan_nth a (length a - 1) NaN H).
  destruct (nth (length a - 1) (f_sort a) NaN); cbn; auto. exfalso. apply Q; auto. destruct a; [congruence|cbn; lia].
Qed.

(** ** C68 *)

(** *** quantiles: when there is one *)
Theorem C68_defined : forall rnd a q,
  (fle (Fin 0) q -> fle q (Fin 1) -> a <> [] -> forall F, rounding rnd F -> exists z, f_quantile rnd a q = Ok z) /\
  (fle (Fin 0) q -> fle q (Fin 1) -> a = [] -> f_quantile rnd a q = Raise IndexError) /\
  (~ (fle (Fin 0) q /\ fle q (Fin 1)) -> f_quantile rnd a q = Raise ValueError).
Proof.
  intros rnd a q. split; [|split].
  - intros H0 H1 Ha F H. destruct q as [q| | |]; cbn in H0, H1; try contradiction.
    assert (Hn : (0 < length a)%nat) by (destruct a; [congruence|cbn; lia]).
    destruct (quantile_cases rnd F (length a) q H Hn (conj H0 H1)) as [T|(k & g & P & _)].
    + destruct (at_top_value rnd a q _ Ha (conj H0 H1) (sort_ordered a) T) as (v & E & _). eauto.
    + rewrite (position_value rnd a q _ k g (conj H0 H1) (sort_ordered a) P). eauto.
  - intros H0 H1 ->. unfold f_quantile, f_valid. rewrite (proj2 (fleb_true _ _) H0), (proj2 (fleb_true _ _) H1). cbn [andb length f_sort fold_right].
    destruct (f_indexes 0 _) as [i j]. reflexivity.
  - intros H. unfold f_quantile. destruct (f_valid q) eqn:E; auto. exfalso. apply H. unfold f_valid in E. apply andb_true_iff in E.
    rewrite <- !fleb_true. exact E.
Qed.
Print Assumptions C68_defined.

(** *** one NaN makes every quantile NaN *)
Theorem C68_nan : forall rnd a q z, In NaN a -> f_quantile rnd a q = Ok z -> z = NaN.
Proof.
  intros rnd a q z H. unfold f_quantile. destruct (f_valid q); [|discriminate]. destruct (f_indexes _ _) as [i j].
  assert (L : (0 < length (f_sort a))%nat) by (rewrite f_sort_length; destruct a; [contradiction|cbn; lia]).
  rewrite (index_last _ NaN L), f_sort_length, (nan_last a NaN H). cbn [rbind f_is_nan].
  destruct (py_index (f_sort a) i); cbn [rbind]; [|discriminate]. destruct (py_index (f_sort a) j); cbn [rbind]; [|discriminate]. congruence.
Qed.
Print Assumptions C68_nan.

(** *** infinite samples next to the quantile: NaN, unless the position is in the
    half of the finite neighbour and not on it *)
Theorem C68_infinite_neighbours : forall rnd F a s q k g z x y, rounding rnd F -> ~ In NaN a -> ordered a s -> 0 <= q <= 1 ->
  position rnd (length a) q k g -> nth_error s k = Some x -> nth_error s (S k) = Some y ->
  f_quantile rnd a (Fin q) = Ok z ->
  (infinite x -> infinite y -> z = NaN) /\
  (forall r, x = Fin r -> y = PInf -> (0 < g < 1 / 2 -> z = PInf) /\ (g = 0 \/ 1 / 2 <= g -> z = NaN)) /\
  (forall r, x = NInf -> y = Fin r -> (g < 1 / 2 \/ rnd (1 - g) = Fin 0 -> z = NaN) /\ (1 / 2 <= g -> rnd (1 - g) <> Fin 0 -> z = NInf)).
Proof.
  intros rnd F a s q k g z x y H NN O Hq P Hx Hy E.
  destruct (quantile_cases rnd F (length a) q H ltac:(destruct P; lia) Hq) as [T|(k' & g' & P' & Hg)].
  { exfalso. destruct P as (Hk & w & Ew & Hw & _). unfold at_top in T. rewrite Ew in T. cbn in T. assert (Q := le_INR (S k) (length a - 1) ltac:(lia)). rewrite S_INR in Q. lra. }
  assert (k' = k /\ g' = g) as (-> & ->).
  { destruct P as (Hk & w & Ew & Hw & Eg), P' as (Hk' & w' & Ew' & Hw' & Eg'). rewrite Ew in Ew'. injection Ew' as <-.
    assert (k' = k). { destruct (Nat.lt_trichotomy k k') as [L|[L|L]]; auto; apply le_INR in L; rewrite S_INR in L; lra. } subst k'. split; congruence. }
  rewrite (position_value _ _ _ _ _ _ Hq O P) in E. rewrite (last_not_nan _ _ O NN) in E by (destruct P; destruct a; [cbn in *; lia|discriminate]).
  rewrite (nth_error_nth _ _ NaN Hx), (nth_error_nth _ _ NaN Hy) in E. injection E as E. unfold f_lerp in E. cbn [fleb] in E.
  assert (H1g : exists h, rnd (1 - g) = Fin h /\ 0 <= h).
  { assert (G0 := ro_mono _ _ H 0 (1 - g) ltac:(lra)). rewrite (ro_fix _ _ H 0 (ro_zero _ _ H)) in G0.
    assert (G1 := ro_mono _ _ H (1 - g) 1 ltac:(lra)). rewrite (ro_fix _ _ H 1 (ro_one _ _ H)) in G1.
    destruct (rnd (1 - g)) as [h| | |]; cbn in *; try contradiction. eauto. }
  destruct H1g as (h & Eh & Hh).
  assert (S1 : fsub rnd (Fin 1) (Fin g) = Fin h) by (unfold fsub; cbn [fneg fadd]; exact Eh). rewrite S1 in E.
  assert (FP : forall r, 0 < r -> finf r = PInf) by (intros r Hr; unfold finf; destruct (total_order_T r 0) as [[?|?]|?]; auto; lra).
  assert (FZ : finf 0 = NaN) by (unfold finf; destruct (total_order_T 0 0) as [[?|?]|?]; auto; lra).
  split; [|split].
  - intros [-> | ->] [-> | ->]; unfold fsub in E; cbn [fneg fadd fmul] in E; destruct (Rle_dec (1 / 2) g); try (subst z; reflexivity).
    + destruct Hh as [Hh|<-]; [rewrite (FP h Hh) in E|rewrite FZ in E]; subst z; reflexivity.
    + destruct (proj1 Hg) as [G|<-]; [rewrite (FP g G) in E|rewrite FZ in E]; subst z; reflexivity.
    + destruct Hh as [Hh|<-]; [rewrite (FP h Hh) in E|rewrite FZ in E]; subst z; reflexivity.
    + destruct (proj1 Hg) as [G|<-]; [rewrite (FP g G) in E|rewrite FZ in E]; subst z; reflexivity.
  - intros r -> ->. unfold fsub in E; cbn [fneg fadd fmul] in E. split.
    + intros G. destruct (Rle_dec (1 / 2) g); [lra|]. rewrite (FP g) in E by lra. now subst z.
    + intros [-> | G].
      * destruct (Rle_dec (1 / 2) 0); [lra|]. rewrite FZ in E. now subst z.
      * destruct (Rle_dec (1 / 2) g); [|lra]. destruct Hh as [Hh|<-]; [rewrite (FP h Hh) in E|rewrite FZ in E]; subst z; reflexivity.
  - intros r -> ->. unfold fsub in E; cbn [fneg fadd fmul] in E. split.
    + intros [G|G].
      * destruct (Rle_dec (1 / 2) g); [lra|]. destruct (proj1 Hg) as [G'|<-]; [rewrite (FP g G') in E|rewrite FZ in E]; subst z; reflexivity.
      * rewrite Eh in G. injection G as ->. destruct (Rle_dec (1 / 2) g); [rewrite FZ in E; now subst z|].
        destruct (proj1 Hg) as [G'|<-]; [rewrite (FP g G') in E|rewrite FZ in E]; subst z; reflexivity.
    + intros G N. destruct (Rle_dec (1 / 2) g); [|lra]. destruct Hh as [Hh|<-]; [rewrite (FP h Hh) in E; now subst z|congruence].
Qed.
Print Assumptions C68_infinite_neighbours.

(** *** at the last sample: NaN if it is infinite, otherwise the sample itself
    (as long as the index does not overflow) *)
Theorem C68_top : forall rnd F a s q z l, rounding rnd F -> ~ In NaN a -> ordered a s -> 0 <= q <= 1 ->
  at_top rnd (length a) q -> nth_error s (length a - 1) = Some l -> f_quantile rnd a (Fin q) = Ok z ->
  (infinite l -> z = NaN) /\
  (forall r w u u', l = Fin r -> F r -> rnd (INR (length a - 1) * q) = Fin w -> rnd (w + 1) = Fin u -> rnd (1 - u) = Fin u' -> z = Fin r).
Proof.
  intros rnd F a s q z l H NN O Hq T Hl E.
  assert (Ha : a <> []). { intros ->. destruct O as (P & _). apply Permutation_nil in P. subst s. discriminate. }
  destruct (at_top_value rnd a q s Ha Hq O T) as (v & E' & Ev). rewrite E' in E. rewrite (last_not_nan _ _ O NN Ha) in E.
  rewrite (nth_error_nth _ _ NaN Hl) in E. injection E as E. unfold f_lerp in E. split.
  - intros I. destruct I as [-> | ->]; unfold fsub at 2 4 in E; cbn [fneg fadd fmul] in E; destruct (fleb (Fin (1 / 2)) v); subst z; reflexivity.
  - intros r w u u' -> Fr Ew Eu Eu'. rewrite Ew in Ev. unfold fsub in Ev. cbn [fneg fadd] in Ev.
    replace (w + - -1) with (w + 1) in Ev by lra. rewrite Eu in Ev. subst v. unfold fsub in E. cbn [fneg fadd] in E.
    replace (r + - r) with 0 in E by lra. rewrite (ro_fix _ _ H 0 (ro_zero _ _ H)) in E.
    change (1 + - u) with (1 - u) in E. rewrite Eu' in E. cbn [fmul] in E. rewrite !Rmult_0_l, (ro_fix _ _ H 0 (ro_zero _ _ H)) in E. cbn [fneg fadd] in E.
    rewrite Ropp_0, Rplus_0_r, (ro_fix _ _ H r Fr) in E. destruct (fleb (Fin (1 / 2)) (Fin u)); now subst z.
Qed.
Print Assumptions C68_top.

(** *** a number comes from samples without NaN with two finite neighbours *)
Theorem C68_number : forall rnd F a s q r, rounding rnd F -> ordered a s -> f_quantile rnd a (Fin q) = Ok (Fin r) ->
  ~ In NaN a /\
  ((at_top rnd (length a) q /\ exists x, nth_error s (length a - 1) = Some (Fin x)) \/
   (exists k g x y, position rnd (length a) q k g /\ nth_error s k = Some (Fin x) /\ nth_error s (S k) = Some (Fin y))).
Proof.
  intros rnd F a s q r H O E.
  assert (NN : ~ In NaN a) by (intros I; assert (Q := C68_nan _ _ _ _ I E); discriminate). split; [exact NN|].
  assert (L : length s = length a) by (symmetry; apply Permutation_length, O).
  assert (Ns : forall i x, nth_error s i = Some x -> x <> NaN).
  { intros i x Hx ->. apply NN. apply (Permutation_in _ (Permutation_sym (proj1 O))). now apply nth_error_In in Hx. }
  destruct (C68_defined rnd a (Fin q)) as (_ & D2 & D3).
  assert (Hq : 0 <= q <= 1).
  { destruct (Rle_dec 0 q); [destruct (Rle_dec q 1); [lra|]|]; exfalso; rewrite D3 in E; try discriminate; cbn; lra. }
  assert (Ha : a <> []) by (intros Ha; rewrite D2 in E; [discriminate|cbn; lra|cbn; lra|exact Ha]).
  assert (Hn : (0 < length a)%nat) by (destruct a; [congruence|cbn; lia]).
  destruct (quantile_cases rnd F (length a) q H Hn Hq) as [T|(k & g & P & Hg)].
  - left. split; [exact T|]. destruct (nth_error s (length a - 1)) as [l|] eqn:El; [|apply nth_error_None in El; lia].
    destruct (C68_top rnd F a s q _ l H NN O Hq T El E) as (I & _).
    destruct l as [x| | |]; [eauto|specialize (I (or_introl eq_refl)); discriminate|specialize (I (or_intror eq_refl)); discriminate|elim (Ns _ _ El eq_refl)].
  - right. assert (Hk : (S k < length a)%nat) by apply P.
    destruct (nth_error s k) as [x|] eqn:Ex; [|apply nth_error_None in Ex; lia]. destruct (nth_error s (S k)) as [y|] eqn:Ey; [|apply nth_error_None in Ey; lia].
    destruct (C68_infinite_neighbours rnd F a s q k g _ x y H NN O Hq P Ex Ey E) as (I1 & I2 & I3).
    assert (Nx := Ns _ _ Ex). assert (Ny := Ns _ _ Ey).
    assert (B : before x y).
    { rewrite <- (ordered_sort _ _ O) in Ex, Ey. assert (Q := sorted_nth (f_sort a) k (S k) NaN (f_sort_sorted a)). rewrite f_sort_length in Q. specialize (Q ltac:(lia)).
      rewrite (nth_error_nth _ _ NaN Ex), (nth_error_nth _ _ NaN Ey) in Q. exact Q. }
    unfold infinite in I1.
    destruct x as [x| | |], y as [y| | |]; try congruence; cbn in B; try contradiction.
    + exists k, g, x, y. split; [exact P|split; assumption].
    + destruct (I2 x eq_refl eq_refl) as (U & V). exfalso. destruct (Rle_dec (1 / 2) g) as [G|G]; [specialize (V (or_intror G)); discriminate|].
      destruct (proj1 Hg) as [G0|G0]; [specialize (U ltac:(lra)); discriminate|specialize (V (or_introl (eq_sym G0))); discriminate].
    + specialize (I1 ltac:(auto) ltac:(auto)). discriminate.
    + destruct (I3 y eq_refl eq_refl) as (U & V). exfalso. destruct (Rle_dec (1 / 2) g) as [G|G]; [|specialize (U ltac:(left; lra)); discriminate].
      assert (N : rnd (1 - g) <> Fin 0) by (intros N; specialize (U (or_intror N)); discriminate). specialize (V G N). discriminate.
    + specialize (I1 ltac:(auto) ltac:(auto)). discriminate.
    + specialize (I1 ltac:(auto) ltac:(auto)). discriminate.
Qed.
Print Assumptions C68_number.

(** *** the ranges: parameter by parameter *)
Lemma range_value : forall rnd F rows cols alpha, rounding rnd F -> rows <> [] -> 0 <= alpha <= 2 ->
  exists q1 q2, rnd (alpha / 2) = Fin q1 /\ rnd (1 - q1) = Fin q2 /\ 0 <= q1 <= 1 /\ 0 <= q2 <= 1 /\
  f_range rnd rows cols (Fin alpha) = Ok (map (fun j => match f_quantile rnd (f_column j rows) (Fin q1), f_quantile rnd (f_column j rows) (Fin q2) with
     Ok a, Ok b => fsub rnd b a | _, _ => NaN end) (seq 0 cols)).
Proof.
  intros rnd F rows cols alpha H Hr Ha.
  assert (B : forall x, 0 <= x <= 1 -> exists y, rnd x = Fin y /\ 0 <= y <= 1).
  { intros x Hx. assert (G0 := ro_mono _ _ H 0 x ltac:(lra)). rewrite (ro_fix _ _ H 0 (ro_zero _ _ H)) in G0.
    assert (G1 := ro_mono _ _ H x 1 ltac:(lra)). rewrite (ro_fix _ _ H 1 (ro_one _ _ H)) in G1.
    destruct (rnd x) as [h| | |]; cbn in *; try contradiction. eauto. }
  destruct (B (alpha / 2) ltac:(lra)) as (q1 & E1 & H1). destruct (B (1 - q1) ltac:(lra)) as (q2 & E2 & H2).
  exists q1, q2. split; [exact E1|]. split; [exact E2|]. split; [exact H1|]. split; [exact H2|].
  unfold f_range. assert (D : fdiv rnd (Fin alpha) (Fin 2) = Fin q1). { cbn [fdiv]. destruct (Req_EM_T 2 0); [lra|exact E1]. }
  rewrite D. assert (D2 : fsub rnd (Fin 1) (Fin q1) = Fin q2) by exact E2. rewrite D2.
  unfold f_quantiles. rewrite !valid_fin by assumption. cbn [andb]. destruct rows as [|row rows]; [congruence|].
  set (rs := row :: rows) in *.
  assert (Q : forall q j, 0 <= q <= 1 -> exists z, f_quantile rnd (f_column j rs) (Fin q) = Ok z).
  { intros q j Hq. apply (proj1 (C68_defined rnd (f_column j rs) (Fin q))) with F; cbn; try lra; [|exact H]. unfold rs, f_column. discriminate. }
  set (v := fun q j => match f_quantile rnd (f_column j rs) (Fin q) with Ok a => a | _ => NaN end).
  rewrite (rseq_map_Ok _ (v q1)) by (intros j _; unfold v; destruct (Q q1 j H1) as (z & ->); reflexivity).
  rewrite (rseq_map_Ok _ (v q2)) by (intros j _; unfold v; destruct (Q q2 j H2) as (z & ->); reflexivity).
  cbn [rbind fst snd]. f_equal. generalize (seq 0 cols) as l. induction l as [|j l IH]; [reflexivity|]. cbn [map combine fst snd].
  rewrite IH. f_equal. unfold v. destruct (Q q1 j H1) as (z1 & ->). destruct (Q q2 j H2) as (z2 & ->). reflexivity.
Qed.
Lemma range_at : forall rnd F rows cols alpha j x, rounding rnd F -> rows <> [] -> 0 <= alpha <= 2 -> f_range_of rnd rows cols (Fin alpha) j x ->
  (j < cols)%nat /\ exists q1 q2 a b, rnd (alpha / 2) = Fin q1 /\ rnd (1 - q1) = Fin q2 /\
    f_quantile rnd (f_column j rows) (Fin q1) = Ok a /\ f_quantile rnd (f_column j rows) (Fin q2) = Ok b /\ x = fsub rnd b a.
Proof.
  intros rnd F rows cols alpha j x H Hr Ha (r & E & N). destruct (range_value rnd F rows cols alpha H Hr Ha) as (q1 & q2 & E1 & E2 & H1 & H2 & E').
  rewrite E' in E. injection E as <-. rewrite nth_error_map in N.
  destruct (nth_error (seq 0 cols) j) as [j'|] eqn:Ej; [|discriminate].
  assert (J : (j < cols)%nat) by (rewrite <- (seq_length cols 0); apply nth_error_Some; congruence). split; [exact J|].
  assert (j' = j). { rewrite (nth_error_nth' _ 0%nat) in Ej by (rewrite seq_length; exact J). rewrite seq_nth in Ej by exact J. cbn in Ej. congruence. } subst j'.
  assert (Q : forall q, 0 <= q <= 1 -> exists z, f_quantile rnd (f_column j rows) (Fin q) = Ok z).
  { intros q Hq. apply (proj1 (C68_defined rnd (f_column j rows) (Fin q))) with F; cbn; try lra; [|exact H]. destruct rows; [congruence|discriminate]. }
  cbn in N. destruct (Q q1 H1) as (a & Ea). destruct (Q q2 H2) as (b & Eb). rewrite Ea, Eb in N. injection N as <-.
  exists q1, q2, a, b. auto.
Qed.

Theorem C68_ranges : forall rnd F rows cols alpha, rounding rnd F ->
  (0 <= alpha <= 2 -> rows <> [] -> exists r, f_range rnd rows cols (Fin alpha) = Ok r /\ length r = cols) /\
  (0 <= alpha <= 2 -> rows = [] -> f_range rnd rows cols (Fin alpha) = Raise IndexError) /\
  f_range rnd rows cols NaN = Raise ValueError /\ f_range rnd rows cols PInf = Raise ValueError /\ f_range rnd rows cols NInf = Raise ValueError.
Proof.
  intros rnd F rows cols alpha H. split; [|split; [|split; [reflexivity|split; unfold f_range; cbn [fdiv]; destruct (Rlt_dec 2 0); reflexivity]]].
  - intros Ha Hr. destruct (range_value rnd F rows cols alpha H Hr Ha) as (q1 & q2 & _ & _ & _ & _ & E). rewrite E.
    eexists. split; [reflexivity|]. now rewrite map_length, seq_length.
  - intros Ha ->.
    assert (B : forall x, 0 <= x <= 1 -> exists y, rnd x = Fin y /\ 0 <= y <= 1).
    { intros x Hx. assert (G0 := ro_mono _ _ H 0 x ltac:(lra)). rewrite (ro_fix _ _ H 0 (ro_zero _ _ H)) in G0.
      assert (G1 := ro_mono _ _ H x 1 ltac:(lra)). rewrite (ro_fix _ _ H 1 (ro_one _ _ H)) in G1.
      destruct (rnd x) as [h| | |]; cbn in *; try contradiction. eauto. }
    destruct (B (alpha / 2) ltac:(lra)) as (q1 & E1 & H1). destruct (B (1 - q1) ltac:(lra)) as (q2 & E2 & H2).
    unfold f_range. assert (D : fdiv rnd (Fin alpha) (Fin 2) = Fin q1). { cbn [fdiv]. destruct (Req_EM_T 2 0); [lra|exact E1]. }
    rewrite D. assert (D2 : fsub rnd (Fin 1) (Fin q1) = Fin q2) by exact E2. rewrite D2. unfold f_quantiles. rewrite !valid_fin by assumption. reflexivity.
Qed.
Print Assumptions C68_ranges.

(** the range of a parameter depends on its own samples only *)
Theorem C68_columns : forall rnd F rows rows' cols cols' alpha j x x', rounding rnd F -> rows <> [] -> 0 <= alpha <= 2 ->
  map (fun r => nth j r NaN) rows = map (fun r => nth j r NaN) rows' ->
  f_range_of rnd rows cols (Fin alpha) j x -> f_range_of rnd rows' cols' (Fin alpha) j x' -> x = x'.
Proof.
  intros rnd F rows rows' cols cols' alpha j x x' H Hr Ha E R1 R2.
  assert (Hr' : rows' <> []) by (intros ->; destruct rows; [congruence|discriminate]).
  destruct (range_at _ _ _ _ _ _ _ H Hr Ha R1) as (_ & q1 & q2 & a & b & E1 & E2 & Ea & Eb & ->).
  destruct (range_at _ _ _ _ _ _ _ H Hr' Ha R2) as (_ & q1' & q2' & a' & b' & E1' & E2' & Ea' & Eb' & ->).
  rewrite E1 in E1'. injection E1' as <-. rewrite E2 in E2'. injection E2' as <-. unfold f_column in *. congruence.
Qed.
Print Assumptions C68_columns.

(** a NaN among the samples of a parameter makes its range NaN *)
Theorem C68_nan_range : forall rnd F rows cols alpha j x row, rounding rnd F -> 0 <= alpha <= 2 ->
  In row rows -> nth_error row j = Some NaN -> f_range_of rnd rows cols (Fin alpha) j x -> x = NaN.
Proof.
  intros rnd F rows cols alpha j x row H Ha I N R.
  assert (Hr : rows <> []) by (intros ->; contradiction).
  destruct (range_at _ _ _ _ _ _ _ H Hr Ha R) as (_ & q1 & q2 & a & b & E1 & E2 & Ea & Eb & ->).
  assert (C : In NaN (f_column j rows)). { unfold f_column. apply in_map_iff. exists row. split; [|exact I]. now apply nth_error_nth with (d := NaN) in N. }
  rewrite (C68_nan _ _ _ _ C Ea), (C68_nan _ _ _ _ C Eb). reflexivity.
Qed.
Print Assumptions C68_nan_range.

(** a range that is a number: no NaN among the samples, and both quantiles are
    numbers *)
Theorem C68_number_range : forall rnd F rows cols alpha j x, rounding rnd F -> rows <> [] -> 0 <= alpha <= 2 ->
  f_range_of rnd rows cols (Fin alpha) j (Fin x) ->
  ~ In NaN (map (fun r => nth j r NaN) rows) /\
  exists q1 q2 lo hi, rnd (alpha / 2) = Fin q1 /\ rnd (1 - q1) = Fin q2 /\ rnd (hi - lo) = Fin x /\
    f_quantile rnd (map (fun r => nth j r NaN) rows) (Fin q1) = Ok (Fin lo) /\ f_quantile rnd (map (fun r => nth j r NaN) rows) (Fin q2) = Ok (Fin hi).
Proof.
  intros rnd F rows cols alpha j x H Hr Ha R. destruct (range_at _ _ _ _ _ _ _ H Hr Ha R) as (_ & q1 & q2 & a & b & E1 & E2 & Ea & Eb & E).
  fold (f_column j rows). split.
  - intros I. rewrite (C68_nan _ _ _ _ I Ea), (C68_nan _ _ _ _ I Eb) in E. discriminate.
  - unfold fsub in E. destruct b as [hi| | |], a as [lo| | |]; cbn in E; try discriminate. exists q1, q2, lo, hi. rewrite E. auto.
Qed.
Print Assumptions C68_number_range.

(** *** the credible region: one NaN among the log posteriors and no point
    belongs to it; nor does a point with log posterior NaN *)
Theorem C68_region_nan : forall rnd logpis alpha t x,
  (In NaN logpis -> f_region rnd logpis alpha = Ok t -> t = NaN /\ f_in_region x t = false) /\ f_in_region NaN t = false.
Proof.
  intros rnd logpis alpha t x. split; [|destruct t; reflexivity]. intros I E. rewrite (C68_nan _ _ _ _ I E). split; [reflexivity|].
  destruct x; reflexivity.
Qed.
Print Assumptions C68_region_nan.
Theorem C68_region : forall rnd F logpis alpha x t, rounding rnd F ->
  (f_in_region x t = true <-> fle x t) /\
  (0 <= alpha <= 1 -> f_region rnd logpis (Fin alpha) = match rnd (1 - alpha) with Fin q => f_quantile rnd logpis (Fin q) | _ => Raise ValueError end).
Proof.
  intros rnd F logpis alpha x t H. split; [apply fleb_true|]. intros Ha. unfold f_region, fsub. cbn [fneg fadd]. change (1 + - alpha) with (1 - alpha).
  destruct (rnd (1 - alpha)) as [q| | |] eqn:E; try reflexivity.
Qed.
Print Assumptions C68_region.
