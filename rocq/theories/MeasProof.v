(** Proofs about the measurement operators (Measure.v). *)
From Coq Require Import List ZArith Lia Bool Reals Lra Psatz.
From Coquelicot Require Import Coquelicot.
From Verif Require Import PyBase PyBaseFacts CVec OpSpec Utils Measure MeasSpec.
Import ListNotations.
Open Scope R_scope.

Lemma nth_repeat_in : forall {A} (a d : A) n i, (i < n)%nat -> nth i (repeat a n) d = a.
Proof. intros A a d n. induction n; intros [|i] H; simpl; auto; try lia. apply IHn; lia. Qed.

Lemma skipn_skipn : forall {A} i j (l : list A), skipn i (skipn j l) = skipn (j + i) l.
Proof. intros A i j. induction j; intros l; [reflexivity|]. destruct l; simpl; [apply skipn_nil|apply IHj]. Qed.

Lemma Ok_inj : forall {A} (a b : A), Ok a = Ok b -> a = b.
Proof. congruence. Qed.

(** ** Identity *)

Lemma eye_dot : forall m n x, length x = n -> matvec (eye m n) x = pad_or_cut m x.
Proof.
  intros m n x L. unfold matvec, pad_or_cut. simpl m_rows. apply map_ext_in. intros i Hi. apply in_seq in Hi.
  simpl m_cols. simpl m_ent. destruct (le_lt_dec n i) as [H|H].
  - rewrite nth_overflow by lia. apply csum_map_0. intros j Hj. apply in_seq in Hj.
    destruct (Nat.eqb_spec i j); [lia|ring].
  - rewrite <- (csum_single (fun j => nth j x (RtoC 0)) i n) by lia. apply csum_map_ext.
    intros j _. destruct (Nat.eqb i j); ring.
Qed.
Lemma eyeH_dot : forall m n y, length y = m -> matvec (getH (eye m n)) y = pad_or_cut n y.
Proof.
  intros m n y L. rewrite <- (eye_dot n m y L). unfold matvec. apply map_ext. intros i.
  apply csum_map_ext. intros j _. simpl. rewrite Nat.eqb_sym. destruct (Nat.eqb i j); cplx.
Qed.
Lemma pad_or_cut_id : forall x, pad_or_cut (length x) x = x.
Proof.
  intros x. unfold pad_or_cut. apply (list_eq_nth _ _ (RtoC 0)); [rewrite map_length, seq_length; reflexivity|].
  intros i Hi. rewrite map_length, seq_length in Hi. rewrite (nth_map_in _ _ _ _ O) by (rewrite seq_length; auto). rewrite seq_nth by auto. reflexivity.
Qed.

(** ** the harmonic kernel *)

Definition kernel_val (l : Z) : R := -1 * sqrt (((IZR l + 2) * (IZR l - 1)) / ((IZR l + 1) * IZR l)).

Lemma inner_loop : forall (A : Type) (ms : list A) l pre rest index,
  (length ms <= length rest)%nat -> index = Z.of_nat (length pre) ->
  fold_left (fun s _ => kernel_step s l) ms (Ok (pre ++ rest, index)) =
  Ok (pre ++ repeat (kernel_val l) (length ms) ++ skipn (length ms) rest, (index + Z.of_nat (length ms))%Z).
Proof.
  intros A ms l. induction ms as [|m ms IH]; intros pre rest index H E.
  - simpl. rewrite Z.add_0_r. reflexivity.
  - destruct rest as [|a rest]; [simpl in H; lia|]. simpl in H.
    assert (ST : kernel_step (Ok (pre ++ a :: rest, index)) l = Ok ((pre ++ [kernel_val l]) ++ rest, (index + 1)%Z)).
    { unfold kernel_step. cbn [rbind]. rewrite py_setitem_ok by (rewrite app_length; simpl; lia). cbn [rbind].
      rewrite E, Nat2Z.id, upd_app_exact, <- app_assoc. reflexivity. }
    cbn [fold_left]. rewrite ST. rewrite IH; [|lia|rewrite app_length; simpl; lia].
    rewrite <- app_assoc. cbn [length skipn repeat app]. f_equal. f_equal. lia.
Qed.

(** values laid out degree after degree *)
Definition degrees_from (a n : nat) : list R :=
  flat_map (fun l => repeat (kernel_val (Z.of_nat l)) (2 * l + 1)) (seq a n).

Lemma degrees_from_length : forall n, length (degrees_from 2 n) = ((n + 2) * (n + 2) - 4)%nat.
Proof.
  intros n. unfold degrees_from. induction n; [reflexivity|].
  rewrite seq_S, flat_map_app, app_length, IHn. cbn [flat_map]. rewrite app_nil_r, repeat_length. nia.
Qed.

Lemma zrange_seq : forall a n, (0 <= a)%Z -> zrange a (a + Z.of_nat n) = map Z.of_nat (seq (Z.to_nat a) n).
Proof.
  intros a n H. unfold zrange. replace (Z.to_nat (a + Z.of_nat n - a)) with n by lia.
  apply (list_eq_nth _ _ 0%Z); [rewrite !map_length, !seq_length; reflexivity|]. intros i Hi. rewrite map_length, seq_length in Hi.
  rewrite !(nth_map_in _ _ _ _ O) by (rewrite seq_length; auto). rewrite !seq_nth by auto. lia.
Qed.

Lemma outer_loop : forall n rest, ((n + 2) * (n + 2) - 4 <= length rest)%nat ->
  fold_left (fun s l => fold_left (fun s _ => kernel_step s l) (zrange (- l) (l + 1)) s)
            (map Z.of_nat (seq 2 n)) (Ok (repeat 1 4 ++ rest, 4%Z)) =
  Ok ((repeat 1 4 ++ degrees_from 2 n) ++ skipn ((n + 2) * (n + 2) - 4) rest, Z.of_nat ((n + 2) * (n + 2))).
Proof.
  intros n rest. induction n as [|n IH]; intros H; [reflexivity|].
  rewrite seq_S, map_app, fold_left_app, IH by nia. cbn [map fold_left].
  assert (LZ : forall l, length (zrange (- Z.of_nat l) (Z.of_nat l + 1)) = (2 * l + 1)%nat) by (intros; rewrite length_zrange; lia).
  rewrite inner_loop.
  - rewrite LZ. f_equal. f_equal; [|nia].
    unfold degrees_from. rewrite seq_S, flat_map_app. cbn [flat_map]. rewrite app_nil_r, <- !app_assoc. f_equal. f_equal. f_equal.
    rewrite skipn_skipn. f_equal. nia.
  - rewrite LZ, skipn_length. nia.
  - rewrite app_length, repeat_length, degrees_from_length. nia.
Qed.

Lemma kernel_layout : forall L, (1 <= L)%nat ->
  compute_harmonic_kernel (Z.of_nat L) = Ok (match L with 1%nat => [1] | _ => repeat 1 4 ++ degrees_from 2 (L - 2) end).
Proof.
  intros L HL. unfold compute_harmonic_kernel. replace (Z.to_nat (Z.of_nat L * Z.of_nat L)) with (L * L)%nat by nia.
  destruct L as [|[|n]]; [lia|reflexivity|].
  replace (Z.of_nat (S (S n))) with (2 + Z.of_nat n)%Z by lia.
  rewrite zrange_seq by lia. replace (Z.to_nat 2) with 2%nat by reflexivity.
  replace (S (S n) * S (S n))%nat with (4 + ((n + 2) * (n + 2) - 4))%nat by nia. rewrite repeat_app.
  rewrite outer_loop by (rewrite repeat_length; lia). cbn [rbind fst].
  rewrite skipn_all2 by (rewrite repeat_length; lia). rewrite app_nil_r. replace (S (S n) - 2)%nat with n by lia. reflexivity.
Qed.

Lemma degrees_nth : forall n l k d, (2 <= l < n + 2)%nat -> (k <= 2 * l)%nat ->
  nth (l * l - 4 + k) (degrees_from 2 n) d = kernel_val (Z.of_nat l).
Proof.
  induction n as [|n IH]; intros l k d Hl Hk; [lia|].
  assert (E : degrees_from 2 (S n) = degrees_from 2 n ++ repeat (kernel_val (Z.of_nat (2 + n))) (2 * (2 + n) + 1)).
  { unfold degrees_from. rewrite seq_S, flat_map_app. cbn [flat_map]. rewrite app_nil_r. reflexivity. }
  rewrite E. destruct (Nat.eq_dec l (n + 2)) as [->|N].
  - rewrite app_nth2 by (rewrite degrees_from_length; lia). rewrite degrees_from_length.
    replace ((n + 2) * (n + 2) - 4 + k - ((n + 2) * (n + 2) - 4))%nat with k by lia.
    rewrite nth_repeat_in by lia. f_equal. lia.
  - rewrite app_nth1 by (rewrite degrees_from_length; nia). apply IH; lia.
Qed.

Lemma kernel_val_factor : forall l, kernel_val (Z.of_nat l) = shear_factor l.
Proof. intros l. unfold kernel_val, shear_factor. rewrite <- INR_IZR_INZ. ring. Qed.

Lemma kernel_length : forall L k, (1 <= L)%nat -> compute_harmonic_kernel (Z.of_nat L) = Ok k -> length k = (L * L)%nat.
Proof.
  intros L k HL E. rewrite kernel_layout in E by auto. apply Ok_inj in E; subst k.
  destruct L as [|[|n]]; cbv iota; [lia|reflexivity|]. rewrite app_length, repeat_length, degrees_from_length. nia.
Qed.
Lemma kernel_head : forall L k i, (1 <= L)%nat -> compute_harmonic_kernel (Z.of_nat L) = Ok k -> (i < 4)%nat -> (i < L * L)%nat ->
  nth i k 0 = 1.
Proof.
  intros L k i HL E Hi H. rewrite kernel_layout in E by auto. apply Ok_inj in E; subst k.
  destruct L as [|[|n]]; cbv iota; [lia|destruct i; [reflexivity|lia]|].
  rewrite app_nth1 by (rewrite repeat_length; auto). apply nth_repeat_in; auto.
Qed.
Lemma kernel_degree : forall L k l j, compute_harmonic_kernel (Z.of_nat L) = Ok k -> (2 <= l < L)%nat -> (j <= 2 * l)%nat ->
  nth (l * l + j) k 0 = shear_factor l.
Proof.
  intros L k l j E Hl Hj. rewrite kernel_layout in E by lia. apply Ok_inj in E; subst k.
  destruct L as [|[|n]]; cbv iota; [lia|lia|]. replace (S (S n) - 2)%nat with n by lia.
  rewrite app_nth2 by (rewrite repeat_length; nia). rewrite repeat_length.
  replace (l * l + j - 4)%nat with (l * l - 4 + j)%nat by nia. rewrite degrees_nth by lia. apply kernel_val_factor.
Qed.
(** every position is (l, m) for one l *)
Lemma position_degree : forall L i, (i < L * L)%nat -> exists l j, (l < L)%nat /\ (j <= 2 * l)%nat /\ i = (l * l + j)%nat.
Proof.
  induction L as [|L IH]; intros i H; [lia|]. destruct (le_lt_dec (L * L) i) as [G|G].
  - exists L, (i - L * L)%nat. nia.
  - destruct (IH i G) as (l & j & A & B & E). exists l, j. lia.
Qed.
Lemma shear_factor_bounds : forall l, (2 <= l)%nat -> -1 < shear_factor l < 0.
Proof.
  intros l H. unfold shear_factor. apply le_INR in H. change (INR 2) with (1 + 1) in H.
  set (x := INR l) in *. assert (P : 0 < (x + 2) * (x - 1)) by nra. assert (Q : 0 < (x + 1) * x) by nra.
  assert (A : 0 < (x + 2) * (x - 1) / ((x + 1) * x) < 1).
  { split; [apply Rdiv_lt_0_compat; auto|]. apply (Rmult_lt_reg_r ((x + 1) * x)); auto. unfold Rdiv. rewrite Rmult_assoc, Rinv_l by lra. nra. }
  assert (0 < sqrt ((x + 2) * (x - 1) / ((x + 1) * x))) by (apply sqrt_lt_R0; lra).
  assert (sqrt ((x + 2) * (x - 1) / ((x + 1) * x)) < sqrt 1) by (apply sqrt_lt_1; lra). rewrite sqrt_1 in *. lra.
Qed.
Lemma kernel_bounds : forall L k i, (1 <= L)%nat -> compute_harmonic_kernel (Z.of_nat L) = Ok k -> (4 <= i < L * L)%nat ->
  -1 < nth i k 0 < 0.
Proof.
  intros L k i HL E (Hi & H). destruct (position_degree L i H) as (l & j & A & B & ->).
  rewrite (kernel_degree L k l j E) by nia. apply shear_factor_bounds. nia.
Qed.

(** ** real diagonal operators *)
Definition rdiag (e : list R) (x : vec) : vec := map2 (fun r z => (RtoC r * z)%C) e x.
Lemma rdiag_length : forall e x, length e = length x -> length (rdiag e x) = length x.
Proof. intros. unfold rdiag. rewrite length_map2. lia. Qed.
Lemma rdiag_nth : forall e x i, length e = length x -> (i < length x)%nat ->
  nth i (rdiag e x) (RtoC 0) = (RtoC (nth i e 0%R) * nth i x (RtoC 0))%C.
Proof. intros. unfold rdiag. rewrite (nth_map2 _ _ _ _ 0%R (RtoC 0)) by lia. reflexivity. Qed.
Lemma rdiag_self_adjoint : forall e x y, length x = length e -> length y = length e -> cdot y (rdiag e x) = cdot (rdiag e y) x.
Proof.
  intros e. induction e as [|r e IH]; intros [|a x] [|b y] Lx Ly; simpl in Lx, Ly; try lia; [reflexivity|].
  unfold cdot, rdiag in *. simpl. rewrite IH by lia. rewrite Cconj_mult, Cconj_R. ring.
Qed.
Lemma rdiag_contraction : forall e x, length e = length x -> (forall r, In r e -> -1 <= r <= 1) -> nrm2 (rdiag e x) <= nrm2 x.
Proof.
  intros e. induction e as [|r e IH]; intros [|a x] L H; simpl in L; try lia; [unfold nrm2; simpl; lra|].
  unfold nrm2, rdiag in *. cbn [map2 map rsum fold_right]. assert (I := IH x ltac:(lia) ltac:(intros; apply H; right; auto)).
  assert (R1 := H r (or_introl eq_refl)). rewrite Cmod_mult, Cmod_R, Rpow_mult_distr.
  assert (Rabs r ^ 2 <= 1) by (rewrite pow2_abs; nra). assert (0 <= Cmod a ^ 2) by apply pow2_ge_0.
  unfold rsum in I |- *. nra.
Qed.

(** the kernel with the head zeroed *)
Definition eff (k : list R) : list R := repeat 0 (Nat.min 4 (length k)) ++ skipn 4 k.
Lemma eff_length : forall k, length (eff k) = length k.
Proof. intros. unfold eff. rewrite app_length, repeat_length, skipn_length. lia. Qed.
Lemma skipn_nth : forall {A} n (l : list A) i d, nth i (skipn n l) d = nth (n + i) l d.
Proof. intros A n. induction n; intros l i d; [reflexivity|]. destruct l; simpl; [destruct i; reflexivity|apply IHn]. Qed.
Lemma head_nth : forall {A} (z : A) (l : list A) i d, (i < length l)%nat ->
  nth i (repeat z (Nat.min 4 (length l)) ++ skipn 4 l) d = if Nat.ltb i 4 then z else nth i l d.
Proof.
  intros A z l i d H. destruct (Nat.ltb_spec i 4).
  - rewrite app_nth1 by (rewrite repeat_length; lia). apply nth_repeat_in. lia.
  - rewrite app_nth2 by (rewrite repeat_length; lia). rewrite repeat_length, skipn_nth. f_equal. lia.
Qed.
Lemma eff_nth : forall k i, (i < length k)%nat -> nth i (eff k) 0 = if Nat.ltb i 4 then 0 else nth i k 0.
Proof. intros. unfold eff. apply head_nth; auto. Qed.
Lemma zero_head_length : forall x, length (zero_head x) = length x.
Proof. intros. unfold zero_head, vzero. rewrite app_length, repeat_length, skipn_length. lia. Qed.
Lemma zero_head_nth : forall x i, (i < length x)%nat -> nth i (zero_head x) (RtoC 0) = if Nat.ltb i 4 then RtoC 0 else nth i x (RtoC 0).
Proof. intros. unfold zero_head, vzero. apply head_nth; auto. Qed.

Lemma mapping_value : forall L k x, length k = length x -> harmonic_mapping (mkWLH L k) x = Ok (rdiag (eff k) x).
Proof.
  intros L k x H. unfold harmonic_mapping. simpl wl_kernel. unfold np_mul. rewrite np_bin_eq by (rewrite map_length; auto). cbn [rbind]. f_equal.
  assert (LM : length (map2 Cmult x (map RtoC k)) = length x) by (rewrite length_map2, map_length; lia).
  apply (list_eq_nth _ _ (RtoC 0)); [rewrite zero_head_length, rdiag_length, LM; auto; rewrite eff_length; auto|].
  intros i Hi. rewrite zero_head_length, LM in Hi. rewrite zero_head_nth by lia. rewrite rdiag_nth by (rewrite ?eff_length; auto).
  rewrite eff_nth by lia. destruct (Nat.ltb i 4); [cplx|].
  rewrite (nth_map2 _ _ _ _ (RtoC 0) (RtoC 0)) by (rewrite ?map_length; lia). rewrite (nth_map_in _ _ _ _ 0%R) by lia. ring.
Qed.
Lemma inverse_mapping_value : forall L k x, length k = length x -> (forall i, (4 <= i < length k)%nat -> nth i k 0 <> 0) ->
  harmonic_inverse_mapping (mkWLH L k) x = Ok (rdiag (eff (map Rinv k)) x).
Proof.
  intros L k x H NZ. unfold harmonic_inverse_mapping. simpl wl_kernel. unfold np_div. rewrite np_bin_eq by (rewrite map_length; auto). cbn [rbind]. f_equal.
  assert (LM : length (map2 Cdiv x (map RtoC k)) = length x) by (rewrite length_map2, map_length; lia).
  apply (list_eq_nth _ _ (RtoC 0)); [rewrite zero_head_length, rdiag_length, LM; auto; rewrite eff_length, map_length; auto|].
  intros i Hi. rewrite zero_head_length, LM in Hi. rewrite zero_head_nth by lia. rewrite rdiag_nth by (rewrite ?eff_length, ?map_length; auto).
  rewrite eff_nth by (rewrite map_length; lia). destruct (Nat.ltb_spec i 4); [cplx|].
  rewrite (nth_map2 _ _ _ _ (RtoC 0) (RtoC 0)) by (rewrite ?map_length; lia). rewrite !(nth_map_in _ _ _ _ 0%R) by lia.
  unfold Cdiv. rewrite <- RtoC_inv by (apply NZ; lia). ring.
Qed.

Lemma adjoint_pair_ext : forall f g f' g' n m, adjoint_pair f g n m ->
  (forall x, length x = n -> f' x = f x) -> (forall y, length y = m -> g' y = g y) -> adjoint_pair f' g' n m.
Proof.
  intros f g f' g' n m (F & G & A) Hf Hg. split; [|split].
  - intros x Hx. rewrite Hf by auto. auto.
  - intros y Hy. rewrite Hg by auto. auto.
  - intros x y fx gy Hx Hy Ex Ey. rewrite Hf in Ex by auto. rewrite Hg in Ey by auto. eauto.
Qed.
Lemma rdiag_adjoint : forall e, adjoint_pair (fun x => Ok (rdiag e x)) (fun x => Ok (rdiag e x)) (length e) (length e).
Proof.
  intros e. split; [|split].
  - intros x H. eexists; split; [reflexivity|]. rewrite rdiag_length; auto.
  - intros x H. eexists; split; [reflexivity|]. rewrite rdiag_length; auto.
  - intros x y fx gy Hx Hy Ex Ey. injection Ex as <-. injection Ey as <-. apply rdiag_self_adjoint; auto.
Qed.

(** ** masks *)

Lemma select_nil : forall {A} bits, @select A bits [] = [].
Proof. destruct bits as [|[]]; reflexivity. Qed.
Lemma select_spec : forall {A} bits (f : list A) d, length bits = length f ->
  select bits f = map (fun i => nth i f d) (set_positions bits).
Proof.
  intros A bits f d. unfold set_positions. revert f. induction bits as [|b bits IH]; intros [|a f] H; simpl in H; try lia; [reflexivity|].
  assert (E : filter (fun i => nth i (b :: bits) false) (seq 0 (S (length bits))) =
     (if b then [0%nat] else []) ++ map S (filter (fun i => nth i bits false) (seq 0 (length bits)))).
  { cbn [seq filter nth]. rewrite <- seq_shift. assert (Q : forall l, filter (fun i => nth i (b :: bits) false) (map S l) = map S (filter (fun i => nth i bits false) l)).
    { induction l as [|i l IHl]; [reflexivity|]. cbn [map filter]. change (nth (S i) (b :: bits) false) with (nth i bits false).
      rewrite IHl. destruct (nth i bits false); reflexivity. }
    rewrite Q. destruct b; reflexivity. }
  cbn [length]. rewrite E, map_app, map_map. simpl select. rewrite (IH f) by lia. destruct b; reflexivity.
Qed.
Lemma select_length : forall {A} bits (f : list A), length bits = length f -> length (select bits f) = count_true bits.
Proof.
  intros A bits. unfold count_true. induction bits as [|b bits IH]; intros [|a f] H; simpl in H; try lia; [reflexivity|].
  destruct b; simpl; rewrite IH by lia; reflexivity.
Qed.
Lemma set_positions_count : forall bits, length (set_positions bits) = count_true bits.
Proof.
  intros bits. rewrite <- (map_length (fun i => nth i bits false)). rewrite <- (select_spec bits bits false eq_refl).
  apply select_length. reflexivity.
Qed.
Lemma scatter_length : forall {A} (d : A) bits f x, length (scatter d bits f x) = length f.
Proof.
  intros A d bits. induction bits as [|b bits IH]; intros [|a f] x; simpl; auto; destruct b; simpl; auto.
Qed.
Lemma select_scatter : forall {A} (d : A) bits f x, length bits = length f -> length x = count_true bits ->
  select bits (scatter d bits f x) = x.
Proof.
  intros A d bits. unfold count_true. induction bits as [|b bits IH]; intros [|a f] x H Hx; simpl in H, Hx; try lia.
  - destruct x; [reflexivity|discriminate].
  - destruct b; simpl in *.
    + destruct x as [|v x]; [discriminate|]. simpl. rewrite IH by (simpl in *; lia). reflexivity.
    + apply IH; lia.
Qed.
Lemma scatter_nth_clear : forall {A} (d z : A) bits f x i, length bits = length f -> (i < length f)%nat -> nth i bits false = false ->
  nth i (scatter d bits f x) z = nth i f z.
Proof.
  intros A d z bits. induction bits as [|b bits IH]; intros [|a f] x i H Hi HB; simpl in H, Hi; try lia.
  destruct b, i; simpl in *; auto; try discriminate; apply IH; auto; lia.
Qed.
Lemma select_scatter_adjoint : forall bits f x, length bits = length f -> length x = count_true bits ->
  cdot x (select bits f) = cdot (scatter (RtoC 0) bits (repeat (RtoC 0) (length f)) x) f.
Proof.
  unfold count_true. induction bits as [|b bits IH]; intros [|a f] x H Hx; simpl in H, Hx; try lia.
  - destruct x; [reflexivity|discriminate].
  - destruct b; simpl in *.
    + destruct x as [|v x]; [discriminate|]. unfold cdot in *. simpl. rewrite IH by (simpl in *; lia). reflexivity.
    + rewrite IH by lia. unfold cdot. simpl. rewrite Cconj_R. ring.
Qed.

Lemma np_bin_raise : forall {A B D} (f : A -> B -> D) l m,
  length l <> length m -> length l <> 1%nat -> length m <> 1%nat -> np_bin f l m = Raise ValueError.
Proof.
  intros A B D f l m N N1 N2. unfold np_bin. rewrite (proj2 (Nat.eqb_neq _ _) N).
  destruct l as [|a [|b l]], m as [|c [|e m]]; simpl in *; try reflexivity; lia.
Qed.
