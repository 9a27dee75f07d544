From Coq Require Import List ZArith Lia Bool Reals Lra Psatz Arith.
From Coquelicot Require Import Coquelicot.
From Verif Require Import PyBase PyBaseFacts CVec RSort ThreshProof Utils UtilsSpec.
Import ListNotations.
Open Scope R_scope.

(** ** list facts *)
Lemma flat_map_const_length : forall {A B} (f : A -> list B) c l,
  (forall a, In a l -> length (f a) = c) -> length (flat_map f l) = (length l * c)%nat.
Proof.
  induction l; simpl; intros H; auto. rewrite app_length, IHl, H; auto.
Qed.
Lemma nth_flat_map_seq : forall {B} (f : nat -> list B) c n s i j d,
  (forall a, length (f a) = c) -> (j < c)%nat -> (i < n)%nat ->
  nth (i * c + j) (flat_map f (seq s n)) d = nth j (f (s + i)%nat) d.
Proof.
  induction n; intros s i j d H Hj Hi; [lia|]. simpl seq. simpl flat_map. destruct i.
  - rewrite app_nth1 by (rewrite H; simpl; lia). simpl. f_equal. f_equal. lia.
  - rewrite app_nth2 by (rewrite H; simpl; lia). rewrite H.
    replace (S i * c + j - c)%nat with (i * c + j)%nat by (simpl; lia).
    rewrite IHn by (auto; lia). f_equal. f_equal. lia.
Qed.
Lemma firstn_skipn_flat_map : forall {B} (f : nat -> list B) c n s i,
  (forall a, length (f a) = c) -> (i < n)%nat ->
  firstn c (skipn (i * c) (flat_map f (seq s n))) = f (s + i)%nat.
Proof.
  induction n; intros s i H Hi; [lia|]. simpl seq. simpl flat_map. destruct i.
  - simpl. rewrite firstn_app, H, Nat.sub_diag, firstn_O, app_nil_r.
    rewrite <- (H s) at 1. rewrite firstn_all. f_equal. lia.
  - rewrite skipn_app, H, skipn_all2 by (rewrite H; simpl; lia).
    replace (S i * c - c)%nat with (i * c)%nat by (simpl; lia).
    simpl app. rewrite IHn by (auto; lia). f_equal. lia.
Qed.
Lemma firstn_plus_app : forall {A} (l : list A) a b, firstn (a + b) l = firstn a l ++ firstn b (skipn a l).
Proof.
  induction l; intros [|a'] b; simpl; auto.
  - rewrite firstn_nil. reflexivity.
  - f_equal. apply IHl.
Qed.
Lemma skipn_add : forall {A} (l : list A) a b, skipn (a + b) l = skipn b (skipn a l).
Proof.
  induction l; intros [|a'] b; simpl; auto. rewrite skipn_nil. reflexivity.
Qed.
Lemma concat_chunks : forall {A} (l : list A) c n s,
  List.concat (map (fun i => firstn c (skipn (i * c) l)) (seq s n)) = firstn (n * c) (skipn (s * c) l).
Proof.
  induction n; intros s; [reflexivity|]. cbn [seq map List.concat]. rewrite IHn.
  replace (S s * c)%nat with (s * c + c)%nat by (simpl; lia).
  rewrite skipn_add, <- firstn_plus_app. reflexivity.
Qed.

(** ** slices *)
Lemma py_slice_nat : forall {A} (l : list A) a b, (a <= b <= length l)%nat ->
  py_slice l (Some (Z.of_nat a)) (Some (Z.of_nat b)) = firstn (b - a) (skipn a l).
Proof.
  intros A l a b H. unfold py_slice, slice_bound.
  destruct (Z.ltb_spec (Z.of_nat a) 0); [lia|]. destruct (Z.ltb_spec (Z.of_nat b) 0); [lia|].
  rewrite !Z.min_l by lia. replace (Z.to_nat (Z.of_nat b - Z.of_nat a)) with (b - a)%nat by lia.
  rewrite Nat2Z.id. reflexivity.
Qed.
Lemma py_slice_to : forall {A} (l : list A) b, (b <= length l)%nat ->
  py_slice l None (Some (Z.of_nat b)) = firstn b l.
Proof.
  intros A l b H. unfold py_slice, slice_bound. destruct (Z.ltb_spec (Z.of_nat b) 0); [lia|].
  rewrite Z.min_l by lia. rewrite Z.sub_0_r, Nat2Z.id. reflexivity.
Qed.
Lemma py_slice_from : forall {A} (l : list A) a, (a <= length l)%nat ->
  py_slice l (Some (Z.of_nat a)) None = skipn a l.
Proof.
  intros A l a H. unfold py_slice, slice_bound. destruct (Z.ltb_spec (Z.of_nat a) 0); [lia|].
  rewrite Z.min_l by lia. rewrite Nat2Z.id. apply firstn_all2. rewrite skipn_length. lia.
Qed.

(** ** packing *)
Lemma expand_multires : forall m k b, (k <= length m)%nat ->
  expand_mlm m None (Some (Z.of_nat k)) b = Ok (Arr1 (skipn k m), firstn k m).
Proof. intros; unfold expand_mlm. rewrite py_slice_from, py_slice_to by auto. reflexivity. Qed.

Lemma skipn_app_exact : forall {A} (l m : list A), skipn (length l) (l ++ m) = m.
Proof. induction l; simpl; auto. Qed.
Lemma firstn_app_exact : forall {A} (l m : list A), firstn (length l) (l ++ m) = l.
Proof. induction l; simpl; intros; f_equal; auto. Qed.

Lemma roundtrip_multires : forall wav scal b,
  expand_mlm (flatten_mlm wav scal) None (Some (Z.of_nat (length scal))) b = Ok (Arr1 (ravel_F wav), scal).
Proof.
  intros. unfold flatten_mlm. rewrite expand_multires by (rewrite app_length; lia).
  rewrite skipn_app_exact, firstn_app_exact. reflexivity.
Qed.

Definition chunk (m : vec) (v i : nat) : vec := firstn v (skipn (S i * v) m).
Definition interleave (r : nat) (cols : list vec) : vec :=
  flat_map (fun i => map (fun c => nth i c (RtoC 0)) cols) (seq 0 r).

Lemma expand_nscales : forall m n b v, v = (length m / (n + 1))%nat -> (1 <= v)%nat ->
  expand_mlm m (Some (Z.of_nat n)) None b =
  if b then match n with O => Raise ValueError
                       | _ => Ok (Arr1 (firstn (n * v) (skipn v m)), firstn v m) end
  else Ok (Arr2 v n (interleave v (map (chunk m v) (seq 0 n))), firstn v m).
Proof.
  intros m n b v Hv H1. unfold expand_mlm, py_floordiv.
  assert (LM : ((n + 1) * v <= length m)%nat) by (subst v; apply Nat.mul_div_le; lia).
  destruct (Z.eqb_spec (Z.of_nat n + 1) 0); [lia|].
  replace (Z.of_nat (length m) / (Z.of_nat n + 1))%Z with (Z.of_nat v)
    by (subst v; rewrite Nat2Z.inj_div; f_equal; lia).
  cbn [rbind]. destruct (Z.ltb_spec 0 (Z.of_nat v)); [|lia].
  destruct (Z.ltb_spec (Z.of_nat n) 0); [lia|].
  rewrite py_slice_to by nia.
  assert (E : map (fun i => py_slice m (Some ((i + 1) * Z.of_nat v)%Z) (Some ((i + 2) * Z.of_nat v)%Z)) (zrange 0 (Z.of_nat n))
            = map (chunk m v) (seq 0 n)).
  { unfold zrange. rewrite map_map, Z.sub_0_r, Nat2Z.id. apply map_ext_in. intros i Hi. apply in_seq in Hi.
    replace ((0 + Z.of_nat i + 1) * Z.of_nat v)%Z with (Z.of_nat (S i * v)) by lia.
    replace ((0 + Z.of_nat i + 2) * Z.of_nat v)%Z with (Z.of_nat (S (S i) * v)) by lia.
    rewrite py_slice_nat by nia. unfold chunk. f_equal. simpl; lia. }
  rewrite E. destruct b.
  - destruct n; [reflexivity|]. destruct (map (chunk m v) (seq 0 (S n))) eqn:D; [discriminate|].
    rewrite <- D. clear D. do 2 f_equal. f_equal.
    assert (Q := concat_chunks m v (S n) 1). rewrite Nat.mul_1_l in Q. rewrite <- Q.
    rewrite <- seq_shift, map_map. reflexivity.
  - rewrite !Nat2Z.id. reflexivity.
Qed.

Lemma interleave_length : forall r cols, length (interleave r cols) = (r * length cols)%nat.
Proof.
  intros. unfold interleave. rewrite (flat_map_const_length _ (length cols)).
  - rewrite seq_length; reflexivity.
  - intros; apply map_length.
Qed.
Lemma at2_interleave : forall r cols i j, (i < r)%nat -> (j < length cols)%nat ->
  at2 (length cols) (interleave r cols) i j = nth i (nth j cols []) (RtoC 0).
Proof.
  intros r cols i j Hi Hj. unfold at2, interleave.
  rewrite (nth_flat_map_seq _ (length cols)) by (auto; intros; apply map_length).
  rewrite (nth_map_in _ _ _ _ []) by auto. reflexivity.
Qed.
Lemma ravel_interleave : forall r cols, (forall c, In c cols -> length c = r) ->
  ravel_F (Arr2 r (length cols) (interleave r cols)) = List.concat cols.
Proof.
  intros r cols H. unfold ravel_F. rewrite flat_map_concat_map. f_equal.
  transitivity (map (fun j => nth j cols []) (seq 0 (length cols))).
  - apply map_ext_in. intros j Hj. apply in_seq in Hj.
    assert (Hl : length (nth j cols []) = r) by (apply H, nth_In; lia).
    transitivity (map (fun i => nth i (nth j cols []) (RtoC 0)) (seq 0 r)).
    + apply map_ext_in. intros i Hi. apply in_seq in Hi. apply at2_interleave; lia.
    + rewrite <- Hl. symmetry. apply list_as_map_nth.
  - clear H.
    assert (Q : forall (l : list vec), map (fun j => nth j l []) (seq 0 (length l)) = l).
    { induction l; simpl; auto. f_equal. rewrite <- seq_shift, map_map. exact IHl. }
    apply Q.
Qed.
Lemma interleave_columns : forall r c buf, length buf = (r * c)%nat ->
  interleave r (map (fun j => map (fun i => at2 c buf i j) (seq 0 r)) (seq 0 c)) = buf.
Proof.
  intros r c buf H. apply (nth_ext _ _ (RtoC 0) (RtoC 0)).
  - rewrite interleave_length, map_length, seq_length. auto.
  - intros k Hk. rewrite interleave_length, map_length, seq_length in Hk.
    assert (c <> 0)%nat by (intros ->; lia).
    assert (Hi : (k / c < r)%nat) by (apply Nat.div_lt_upper_bound; lia).
    assert (Hj : (k mod c < c)%nat) by (apply Nat.mod_upper_bound; lia).
    assert (Ek : k = (k / c * c + k mod c)%nat) by (rewrite (Nat.div_mod k c) at 1; lia).
    set (i := (k / c)%nat) in *. set (j := (k mod c)%nat) in *. rewrite Ek.
    set (cols := map (fun j => map (fun i => at2 c buf i j) (seq 0 r)) (seq 0 c)).
    assert (LC : length cols = c) by (unfold cols; rewrite map_length, seq_length; auto).
    change (nth (i * c + j) (interleave r cols) (RtoC 0) = at2 c buf i j).
    rewrite <- LC at 1. change (at2 (length cols) (interleave r cols) i j = at2 c buf i j).
    rewrite at2_interleave by lia. unfold cols.
    rewrite (nth_map_in _ _ _ _ 0%nat) by (rewrite seq_length; auto). rewrite seq_nth by auto.
    rewrite (nth_map_in _ _ _ _ 0%nat) by (rewrite seq_length; auto). rewrite seq_nth by auto. reflexivity.
Qed.

Lemma roundtrip_nscales : forall v n buf scal, length buf = (v * n)%nat -> length scal = v -> (1 <= v)%nat ->
  expand_mlm (flatten_mlm (Arr2 v n buf) scal) (Some (Z.of_nat n)) None false = Ok (Arr2 v n buf, scal).
Proof.
  intros v n buf scal HB HS H1. set (m := flatten_mlm (Arr2 v n buf) scal).
  set (f := fun j => map (fun i => at2 n buf i j) (seq 0 v)).
  assert (Lf : forall j, length (f j) = v) by (intros; unfold f; rewrite map_length, seq_length; auto).
  assert (LM : length m = (v * (n + 1))%nat).
  { unfold m, flatten_mlm, ravel_F. fold f. rewrite app_length, (flat_map_const_length f v), seq_length; auto. lia. }
  assert (Hv : v = (length m / (n + 1))%nat) by (rewrite LM, Nat.div_mul; lia).
  rewrite (expand_nscales m n false v Hv H1). cbv iota. f_equal. f_equal.
  - f_equal. transitivity (interleave v (map f (seq 0 n))); [|apply (interleave_columns v n buf HB)]. f_equal.
    apply map_ext_in. intros j Hj. apply in_seq in Hj. unfold chunk, m, flatten_mlm.
    replace (S j * v)%nat with (length scal + j * v)%nat by (simpl; lia).
    rewrite skipn_add, skipn_app_exact. unfold ravel_F.
    exact (firstn_skipn_flat_map f v n 0 j Lf (proj2 Hj)).
  - unfold m, flatten_mlm. rewrite <- HS. apply firstn_app_exact.
Qed.

Lemma chunk_length : forall m v i, ((S (S i)) * v <= length m)%nat -> length (chunk m v i) = v.
Proof. intros. unfold chunk. rewrite firstn_length, skipn_length. simpl in *. lia. Qed.

Lemma flatten_expand : forall m n v wav scal, v = (length m / (n + 1))%nat -> (1 <= v)%nat ->
  expand_mlm m (Some (Z.of_nat n)) None false = Ok (wav, scal) ->
  flatten_mlm wav scal = firstn ((n + 1) * v) m /\ length scal = v.
Proof.
  intros m n v wav scal Hv H1 H. rewrite (expand_nscales m n false v Hv H1) in H. injection H as <- <-.
  assert (LM : ((n + 1) * v <= length m)%nat) by (rewrite Hv; apply Nat.mul_div_le; lia).
  split; [|rewrite firstn_length; nia].
  unfold flatten_mlm. set (cols := map (chunk m v) (seq 0 n)).
  assert (LC : length cols = n) by (unfold cols; rewrite map_length, seq_length; auto).
  rewrite <- LC at 1. rewrite ravel_interleave.
  - assert (Q := concat_chunks m v n 1). rewrite Nat.mul_1_l in Q.
    replace (List.concat cols) with (firstn (n * v) (skipn v m)).
    + rewrite <- firstn_plus_app. f_equal. lia.
    + rewrite <- Q. unfold cols. rewrite <- seq_shift, map_map. reflexivity.
  - intros c Hc. unfold cols in Hc. apply in_map_iff in Hc. destruct Hc as [i [<- Hi]]. apply in_seq in Hi.
    apply chunk_length. nia.
Qed.

Lemma expand_errors : forall m b,
  expand_mlm m None None b = Raise ValueError /\
  (forall a c, expand_mlm m (Some a) (Some c) b = Raise ValueError) /\
  expand_mlm m (Some (-1)%Z) None b = Raise ZeroDivisionError /\
  (forall n, (n < -1)%Z -> expand_mlm m (Some n) None b = Raise AssertionError) /\
  (forall n, (0 <= n)%Z -> (Z.of_nat (length m) <= n)%Z -> expand_mlm m (Some n) None b = Raise AssertionError) /\
  (m <> [] -> expand_mlm m (Some 0%Z) None true = Raise ValueError).
Proof.
  intros m b. repeat split; auto.
  - intros n H. unfold expand_mlm, py_floordiv. destruct (Z.eqb_spec (n + 1) 0); [lia|]. cbn [rbind].
    destruct (Z.ltb_spec 0 (Z.of_nat (length m) / (n + 1))); [|reflexivity].
    exfalso. assert (D := Z.mul_div_ge (Z.of_nat (length m)) (n + 1) ltac:(lia)). nia.
  - intros n H H2. unfold expand_mlm, py_floordiv. destruct (Z.eqb_spec (n + 1) 0); [lia|]. cbn [rbind].
    rewrite Z.div_small by lia. reflexivity.
  - intros Hm. assert (1 <= length m)%nat by (destruct m; simpl; [congruence|lia]).
    change 0%Z with (Z.of_nat 0).
    rewrite (expand_nscales m 0 true (length m)); auto. rewrite Nat.div_1_r; auto.
Qed.

(** ** band limits *)
Lemma last_nonzero_spec : forall g k acc,
  match last_nonzero g k acc with
  | Some m => ((k <= m < k + length g)%nat /\ nth (m - k) g (RtoC 0) <> RtoC 0 /\
               forall l, (m < l)%nat -> (k <= l)%nat -> nth (l - k) g (RtoC 0) = RtoC 0)
              \/ (acc = Some m /\ forall l, nth l g (RtoC 0) = RtoC 0)
  | None => acc = None /\ forall l, nth l g (RtoC 0) = RtoC 0
  end.
Proof.
  induction g as [|z g IH]; intros k acc; simpl last_nonzero.
  - destruct acc; [right|]; split; auto; intros [|l]; reflexivity.
  - specialize (IH (S k) (if Req_EM_T (Cmod z) 0 then acc else Some k)).
    destruct (last_nonzero g (S k) _) as [m|].
    + destruct IH as [[A [B D]]|[A B]].
      * left. simpl length. split; [lia|]. replace (m - k)%nat with (S (m - S k)) by lia. split; [exact B|].
        intros l Hl Hk. replace (l - k)%nat with (S (l - S k)) by lia. apply D; lia.
      * destruct (Req_EM_T (Cmod z) 0) as [E|E].
        -- right. split; auto. apply Cmod_eq_0 in E. intros [|l]; simpl; auto.
        -- left. injection A as <-. simpl length. split; [lia|]. rewrite Nat.sub_diag. simpl. split.
           ++ intros ->. apply E, Cmod_0.
           ++ intros l Hl _. replace (l - k)%nat with (S (l - S k)) by lia. simpl. apply B.
    + destruct IH as [A B]. destruct (Req_EM_T (Cmod z) 0) as [E|E]; [|discriminate].
      split; auto. apply Cmod_eq_0 in E. intros [|l]; simpl; auto.
Qed.
Lemma bandlimit_of_spec : forall g,
  match bandlimit_of g with
  | Ok b => is_bandlimit (window g) b
  | Raise e => e = ValueError /\ forall l, window g l = RtoC 0
  end.
Proof.
  intros g. unfold bandlimit_of. assert (S := last_nonzero_spec g 0 None).
  destruct (last_nonzero g 0 None) as [m|].
  - destruct S as [[A [B D]]|[A _]]; [|discriminate]. unfold is_bandlimit, window. rewrite Nat.sub_0_r in B.
    split; [lia|]. split.
    + replace (m + 1 - 1)%nat with m by lia. exact B.
    + intros l Hl. specialize (D l). rewrite Nat.sub_0_r in D. apply D; lia.
  - destruct S; auto.
Qed.
Lemma is_bandlimit_unique : forall g a b, is_bandlimit g a -> is_bandlimit g b -> a = b.
Proof.
  intros g a b [A1 [A2 A3]] [B1 [B2 B3]]. destruct (lt_eq_lt_dec a b) as [[H|H]|H]; auto; exfalso.
  - apply B2, A3. lia.
  - apply A2, B3. lia.
Qed.
Lemma bandlimit_of_ok : forall g b, bandlimit_of g = Ok b <-> is_bandlimit (window g) b.
Proof.
  intros g b. assert (S := bandlimit_of_spec g). split; intros H.
  - rewrite H in S. exact S.
  - destruct (bandlimit_of g) as [b'|e].
    + f_equal. eapply is_bandlimit_unique; eauto.
    + destruct S as [_ S]. destruct H as [_ [H _]]. exfalso; auto.
Qed.

Lemma m0_part_ok : forall L psi, (forall el, (el < L)%nat -> (el ^ 2 + el < length psi)%nat) ->
  m0_part L psi = Ok (map (window_m0 L psi) (seq 0 L)).
Proof.
  intros L psi H. unfold m0_part. apply rseq_map_ok. intros el Hel. apply in_seq in Hel.
  unfold window_m0. destruct (Nat.ltb_spec el L); [|lia].
  specialize (H el ltac:(lia)). rewrite (py_index_pos _ _ (RtoC 0)) by lia. rewrite Nat2Z.id. reflexivity.
Qed.
Lemma rseq_raise : forall {A} (l : list (res A)) e,
  rseq l = Raise e -> exists l1 l2, l = map Ok l1 ++ Raise e :: l2.
Proof.
  induction l as [|m l IH]; simpl; intros e H; [discriminate|]. destruct m as [a|e']; simpl in H.
  - destruct (rseq l) eqn:E; simpl in H; [discriminate|]. injection H as <-.
    destruct (IH _ eq_refl) as [l1 [l2 ->]]. exists (a :: l1), l2. reflexivity.
  - injection H as <-. exists [], l. reflexivity.
Qed.
Lemma rseq_raise_intro : forall {A} (l1 : list A) e l2, rseq (map Ok l1 ++ Raise e :: l2) = Raise e.
Proof. induction l1; simpl; intros; auto. rewrite IHl1; reflexivity. Qed.
Lemma m0_part_short : forall L psi, ~ (forall el, (el < L)%nat -> (el ^ 2 + el < length psi)%nat) ->
  m0_part L psi = Raise IndexError.
Proof.
  intros L psi H. unfold m0_part.
  destruct (rseq (map (fun el => py_index psi (Z.of_nat (el ^ 2 + el))) (seq 0 L))) as [r|e] eqn:E.
  - exfalso. apply H. intros el Hel. apply rseq_ok in E.
    destruct (Nat.lt_ge_cases (el ^ 2 + el) (length psi)); auto. exfalso.
    assert (I : In (py_index psi (Z.of_nat (el ^ 2 + el))) (map Ok r)).
    { rewrite <- E. apply (in_map (fun el => py_index psi (Z.of_nat (el ^ 2 + el)))). apply in_seq. lia. }
    rewrite py_index_out in I by lia. apply in_map_iff in I. destruct I as [? [? _]]. discriminate.
  - apply rseq_raise in E. destruct E as [l1 [l2 E]].
    assert (I : In (Raise e) (map (fun el => py_index psi (Z.of_nat (el ^ 2 + el))) (seq 0 L)))
      by (rewrite E; apply in_or_app; right; left; auto).
    apply in_map_iff in I. destruct I as [el [I _]].
    destruct (Nat.lt_ge_cases (el ^ 2 + el) (length psi)).
    + rewrite (py_index_pos _ _ (RtoC 0)) in I by lia. discriminate.
    + rewrite py_index_out in I by lia. congruence.
Qed.

Definition psi_long (L : nat) (psi : vec) : Prop := forall el, (el < L)%nat -> (el ^ 2 + el < length psi)%nat.

Lemma window_m0_window : forall L psi l, window (map (window_m0 L psi) (seq 0 L)) l = window_m0 L psi l.
Proof.
  intros L psi l. unfold window. destruct (Nat.lt_ge_cases l L).
  - rewrite (nth_map_in _ _ _ _ 0%nat) by (rewrite seq_length; auto). rewrite seq_nth by auto. reflexivity.
  - rewrite nth_overflow by (rewrite map_length, seq_length; auto). unfold window_m0.
    destruct (Nat.ltb_spec l L); [lia|reflexivity].
Qed.
Lemma is_bandlimit_ext : forall g h b, (forall l, g l = h l) -> is_bandlimit g b -> is_bandlimit h b.
Proof. intros g h b E [A [B D]]. repeat split; auto; intros; rewrite <- E; auto. Qed.

Lemma psi_rows : forall L cols, (forall psi, In psi cols -> psi_long L psi) ->
  rseq (map (m0_part L) cols) = Ok (map (fun psi => map (window_m0 L psi) (seq 0 L)) cols).
Proof. intros L cols H. apply rseq_map_ok. intros psi Hp. apply m0_part_ok. exact (H psi Hp). Qed.

Lemma Forall2_bandlimits : forall L cols bs,
  map bandlimit_of (map (fun psi => map (window_m0 L psi) (seq 0 L)) cols) = map Ok bs <->
  Forall2 (fun psi b => is_bandlimit (window_m0 L psi) b) cols bs.
Proof.
  induction cols as [|psi cols IH]; intros bs; simpl.
  - split; intros H; [destruct bs; [constructor|discriminate]|inversion H; reflexivity].
  - split; intros H.
    + destruct bs as [|b bs]; [discriminate|]. simpl in H. injection H as H1 H2. constructor.
      * apply bandlimit_of_ok in H1. eapply is_bandlimit_ext; [|exact H1]. intros; apply window_m0_window.
      * apply IH; auto.
    + inversion H as [|? b ? bs' H1 H2]; subst. simpl. f_equal.
      * apply bandlimit_of_ok. eapply is_bandlimit_ext; [|exact H1]. intros; symmetry; apply window_m0_window.
      * apply IH; auto.
Qed.

Lemma multires_ok : forall L t b bs,
  multires_bandlimits L t = Ok (b :: bs) <->
  (length (phi_l t) = L /\ (forall psi, In psi (psi_cols t) -> psi_long L psi) /\
   is_bandlimit (window (phi_l t)) b /\
   Forall2 (fun psi b => is_bandlimit (window_m0 L psi) b) (psi_cols t) bs).
Proof.
  intros L t b bs. split.
  - intros H. unfold multires_bandlimits in H.
    destruct (rseq (map (m0_part L) (psi_cols t))) as [rows|e] eqn:E; simpl in H; [|discriminate].
    assert (A : forall psi, In psi (psi_cols t) -> psi_long L psi).
    { intros psi Hp el Hel. apply rseq_ok in E.
      destruct (Nat.lt_ge_cases (el ^ 2 + el) (length psi)); auto. exfalso.
      assert (I : In (m0_part L psi) (map Ok rows)) by (rewrite <- E; apply in_map; auto).
      rewrite m0_part_short in I; [|intros Q; specialize (Q el Hel); lia].
      apply in_map_iff in I. destruct I as [? [? _]]. discriminate. }
    rewrite (psi_rows L _ A) in E. injection E as <-.
    destruct (Nat.eqb_spec (length (phi_l t)) L) as [EL|]; [|discriminate].
    assert (Q : rseq (map bandlimit_of (phi_l t :: map (fun psi => map (window_m0 L psi) (seq 0 L)) (psi_cols t))) = Ok (b :: bs)) by exact H.
    apply rseq_ok in Q. simpl in Q. injection Q as Q1 Q2.
    repeat match goal with |- _ /\ _ => split end; auto.
    + apply bandlimit_of_ok; auto.
    + apply Forall2_bandlimits; auto.
  - intros [EL [A [B D]]]. unfold multires_bandlimits. rewrite (psi_rows L _ A). cbn [rbind].
    rewrite EL, Nat.eqb_refl. apply rseq_ok. simpl. f_equal.
    + apply bandlimit_of_ok; auto.
    + apply Forall2_bandlimits; auto.
Qed.

Lemma multires_errors : forall L t e, multires_bandlimits L t = Raise e ->
  (e = IndexError /\ exists psi, In psi (psi_cols t) /\ ~ psi_long L psi) \/
  (e = ValueError /\ (forall psi, In psi (psi_cols t) -> psi_long L psi) /\
   (length (phi_l t) <> L \/ (forall l, window (phi_l t) l = RtoC 0) \/
    exists psi, In psi (psi_cols t) /\ forall l, window_m0 L psi l = RtoC 0)).
Proof.
  intros L t e H. unfold multires_bandlimits in H.
  destruct (rseq (map (m0_part L) (psi_cols t))) as [rows|e'] eqn:E; simpl in H.
  - assert (A : forall psi, In psi (psi_cols t) -> psi_long L psi).
    { intros psi Hp el Hel. apply rseq_ok in E.
      destruct (Nat.lt_ge_cases (el ^ 2 + el) (length psi)); auto. exfalso.
      assert (I : In (m0_part L psi) (map Ok rows)) by (rewrite <- E; apply in_map; auto).
      rewrite m0_part_short in I; [|intros Q; specialize (Q el Hel); lia].
      apply in_map_iff in I. destruct I as [? [? _]]. discriminate. }
    rewrite (psi_rows L _ A) in E. injection E as <-. right.
    destruct (Nat.eqb_spec (length (phi_l t)) L) as [EL|].
    2:{ injection H as <-. auto. }
    set (rows := map (fun psi => map (window_m0 L psi) (seq 0 L)) (psi_cols t)) in *.
    assert (Q : rseq (map bandlimit_of (phi_l t :: rows)) = Raise e) by exact H.
    apply rseq_raise in Q. destruct Q as [l1 [l2 Q]].
    assert (I : In (Raise e) (map bandlimit_of (phi_l t :: rows))) by (rewrite Q; apply in_or_app; right; left; auto).
    apply in_map_iff in I. destruct I as [g [Eg Ig]].
    assert (S := bandlimit_of_spec g). rewrite Eg in S. destruct S as [-> S].
    split; [auto|split; [auto|]]. right. destruct Ig as [<-|Ig]; [left; auto|right].
    unfold rows in Ig. apply in_map_iff in Ig. destruct Ig as [psi [<- Ip]]. exists psi. split; auto.
    intros l. rewrite <- window_m0_window. apply S.
  - injection H as <-. left. apply rseq_raise in E. destruct E as [l1 [l2 E]].
    assert (I : In (Raise e') (map (m0_part L) (psi_cols t))) by (rewrite E; apply in_or_app; right; left; auto).
    apply in_map_iff in I. destruct I as [psi [Ep Ip]].
    assert (N : ~ psi_long L psi) by (intros Q; rewrite m0_part_ok in Ep by exact Q; discriminate).
    rewrite m0_part_short in Ep by exact N. split; [congruence|eauto].
Qed.

(** ** Chebyshev polynomials *)
Lemma cheb1_SS : forall x n, cheb1_rec x (S (S n)) = 2 * x * cheb1_rec x (S n) - cheb1_rec x n.
Proof. reflexivity. Qed.
Lemma cheb2_SS : forall x n, cheb2_rec x (S (S n)) = 2 * x * cheb2_rec x (S n) - cheb2_rec x n.
Proof. reflexivity. Qed.
Lemma two_step_ind : forall P : nat -> Prop, P O -> P 1%nat -> (forall n, P n -> P (S n) -> P (S (S n))) -> forall n, P n.
Proof.
  intros P H0 H1 H n. assert (Q : P n /\ P (S n)) by (induction n; [auto|destruct IHn; auto]). apply Q.
Qed.
Lemma cheb1_cos : forall n t, cheb1_rec (cos t) n = cos (INR n * t).
Proof.
  induction n using two_step_ind; intros t.
  - simpl. rewrite Rmult_0_l, cos_0. reflexivity.
  - simpl. rewrite Rmult_1_l. reflexivity.
  - rewrite cheb1_SS, IHn, IHn0.
    replace (INR (S (S n)) * t) with (INR (S n) * t + t) by (rewrite !S_INR; ring).
    replace (INR n * t) with (INR (S n) * t - t) by (rewrite S_INR; ring).
    rewrite cos_plus, cos_minus. ring.
Qed.
Lemma cheb2_sin : forall n t, cheb2_rec (cos t) n * sin t = sin (INR (S n) * t).
Proof.
  induction n using two_step_ind; intros t.
  - simpl. rewrite !Rmult_1_l. reflexivity.
  - simpl. replace ((1 + 1) * t) with (2 * t) by ring. rewrite sin_2a. ring.
  - rewrite cheb2_SS, Rmult_minus_distr_r, Rmult_assoc, IHn0, IHn.
    replace (INR (S (S (S n))) * t) with (INR (S (S n)) * t + t) by (rewrite !S_INR; ring).
    replace (INR (S n) * t) with (INR (S (S n)) * t - t) by (rewrite !S_INR; ring).
    rewrite sin_plus, sin_minus. ring.
Qed.
Lemma cheb1_hyp : forall n z, z <> 0 -> cheb1_rec ((z + / z) / 2) n = (z ^ n + (/ z) ^ n) / 2.
Proof.
  induction n using two_step_ind; intros z Hz.
  - simpl. field.
  - simpl. field. auto.
  - rewrite cheb1_SS, IHn, IHn0 by auto. simpl. field. auto.
Qed.
Lemma cheb2_hyp : forall n z, z <> 0 -> cheb2_rec ((z + / z) / 2) n * (z - / z) = z ^ (S n) - (/ z) ^ (S n).
Proof.
  induction n using two_step_ind; intros z Hz.
  - simpl. field. auto.
  - simpl. field. auto.
  - rewrite cheb2_SS, Rmult_minus_distr_r, Rmult_assoc, IHn0, IHn by auto. simpl. field. auto.
Qed.
Lemma cheb12 : forall n x, cheb1_rec x (S n) = cheb2_rec x (S n) - x * cheb2_rec x n.
Proof.
  induction n using two_step_ind; intros x; [simpl; ring|simpl; ring|].
  rewrite cheb1_SS, IHn0, IHn, (cheb2_SS x (S n)), (cheb2_SS x n). ring.
Qed.
Lemma cheb1_derive : forall n x, is_derive (fun x => cheb1_rec x n) x (INR n * match n with O => 0 | S m => cheb2_rec x m end).
Proof.
  induction n using two_step_ind; intros x.
  - simpl. rewrite Rmult_0_l. apply (is_derive_const (K := R_AbsRing) (V := R_NormedModule) 1).
  - simpl. rewrite Rmult_1_l. apply (is_derive_id (K := R_AbsRing)).
  - assert (A := IHn x). assert (B := IHn0 x). cbv beta iota in A, B.
    set (dn := INR n * match n with O => 0 | S m => cheb2_rec x m end) in *.
    apply is_derive_ext with (fun x => 2 * x * cheb1_rec x (S n) - cheb1_rec x n).
    { intros; symmetry; apply cheb1_SS. }
    evar_last.
    + apply (is_derive_minus (fun x => 2 * x * cheb1_rec x (S n)) (fun x => cheb1_rec x n)).
      * apply (is_derive_mult (fun x => 2 * x) (fun x => cheb1_rec x (S n)) x 2 (INR (S n) * cheb2_rec x n)).
        -- auto_derive; auto. ring.
        -- exact B.
        -- intros; apply Rmult_comm.
      * exact A.
    + unfold minus, plus, opp, mult; simpl Rplus. unfold dn.
      change (2 * cheb1_rec x (S n) + 2 * x * (INR (S n) * cheb2_rec x n) + - (INR n * match n with O => 0 | S m => cheb2_rec x m end)
              = INR (S (S n)) * cheb2_rec x (S n)).
      destruct n.
      * simpl. ring.
      * rewrite (cheb12 (S n)), (cheb2_SS x n), !S_INR. ring.
Qed.

(** ** pixel areas *)
Lemma pairs_length : forall {A} (l : list A), length (pairs l) = (length l - 1)%nat.
Proof. induction l as [|a [|b l] IH]; auto. change (pairs (a :: b :: l)) with ((a, b) :: pairs (b :: l)). simpl length in *. lia. Qed.
Lemma nth_pairs : forall {A} (l : list A) i d, (S i < length l)%nat ->
  nth i (pairs l) (d, d) = (nth i l d, nth (S i) l d).
Proof.
  induction l as [|a [|b l] IH]; intros i d H; simpl in H; try lia.
  change (pairs (a :: b :: l)) with ((a, b) :: pairs (b :: l)). destruct i; [reflexivity|].
  change (nth (S i) ((a, b) :: pairs (b :: l)) (d, d)) with (nth i (pairs (b :: l)) (d, d)).
  rewrite IH by (simpl; lia). reflexivity.
Qed.
Lemma pairs_as_map : forall (l : list R) n, length l = S n ->
  pairs l = map (fun i => (nth i l 0, nth (S i) l 0)) (seq 0 n).
Proof.
  intros l n H. apply (nth_ext _ _ (0, 0) (0, 0)).
  - rewrite pairs_length, map_length, seq_length. lia.
  - intros i Hi. rewrite pairs_length in Hi. rewrite nth_pairs by lia.
    rewrite (nth_map_in _ _ _ _ 0%nat) by (rewrite seq_length; lia). rewrite seq_nth by lia. reflexivity.
Qed.

Definition mw_th (L t : nat) : R := INR (2 * t + 1) * PI / INR (2 * L - 1).

Lemma mw_thetas_nth : forall L t, (t < L)%nat -> nth t (mw_thetas L) 0 = mw_th L t.
Proof. intros. unfold mw_thetas. rewrite (nth_map_in _ _ _ _ 0%nat) by (rewrite seq_length; auto). rewrite seq_nth by auto. reflexivity. Qed.
Lemma mw_phis_nth : forall L p, (1 <= L)%nat -> (p < S (2 * L - 1))%nat ->
  nth p (mw_phis L ++ [2 * PI]) 0 = 2 * PI * INR p / INR (2 * L - 1).
Proof.
  intros L p HL Hp. assert (E : length (mw_phis L) = (2 * L - 1)%nat) by (unfold mw_phis; rewrite map_length, seq_length; auto).
  destruct (Nat.lt_ge_cases p (2 * L - 1)).
  - rewrite app_nth1 by lia. unfold mw_phis. rewrite (nth_map_in _ _ _ _ 0%nat) by (rewrite seq_length; auto).
    rewrite seq_nth by auto. reflexivity.
  - assert (p = 2 * L - 1)%nat by lia. subst p. rewrite app_nth2 by lia. rewrite E, Nat.sub_diag. simpl nth. field.
    apply not_0_INR. lia.
Qed.

Lemma map_const_repeat : forall {A} (a : A) n k, map (fun _ : nat => a) (seq k n) = repeat a n.
Proof. induction n; intros; simpl; auto. f_equal. apply IHn. Qed.

Lemma areas_closed : forall L r, (1 <= L)%nat ->
  calc_pixel_areas (mw_thetas L) (mw_phis L) r =
  Ok (map (fun t => repeat (2 * PI * r ^ 2 / INR (2 * L - 1) * (cos (strip_top L t) - cos (strip_bottom L t))) (2 * L - 1)) (seq 0 L)).
Proof.
  intros L r HL. destruct L as [|L]; [lia|]. set (n := (2 * S L - 1)%nat).
  assert (Hn : INR n <> 0) by (apply not_0_INR; unfold n; lia).
  assert (ET : mw_thetas (S L) = mw_th (S L) 0 :: map (mw_th (S L)) (seq 1 L)) by reflexivity.
  assert (EP : length (mw_phis (S L)) = n) by (unfold mw_phis; rewrite map_length, seq_length; auto).
  assert (LT : length (mw_thetas (S L)) = S L) by (unfold mw_thetas; rewrite map_length, seq_length; auto).
  unfold calc_pixel_areas. rewrite ET at 1. cbv iota. f_equal. simpl seq. rewrite map_cons. f_equal.
  - rewrite EP. fold n. f_equal. unfold polar_cap_area, strip_top, strip_bottom. rewrite cos_0.
    fold n. unfold mw_th. fold n. field. exact Hn.
  - rewrite (pairs_as_map _ L LT). rewrite map_map, <- seq_shift, map_map. apply map_ext_in. intros t Ht. apply in_seq in Ht.
    cbn [fst snd]. rewrite !mw_thetas_nth by lia.
    rewrite (pairs_as_map _ n) by (rewrite app_length, EP; simpl; lia). rewrite map_map. cbn [fst snd].
    fold n.
    transitivity (map (fun _ : nat => 2 * PI * r ^ 2 / INR n * (cos (strip_top (S L) (S t)) - cos (strip_bottom (S L) (S t)))) (seq 0 n)).
    + apply map_ext_in. intros p Hp. apply in_seq in Hp. rewrite !mw_phis_nth by (fold n; lia).
      fold n. unfold pixel_area. change (strip_top (S L) (S t)) with (mw_th (S L) t).
      change (strip_bottom (S L) (S t)) with (mw_th (S L) (S t)). rewrite S_INR. field. exact Hn.
    + apply map_const_repeat.
Qed.
Lemma rsum_repeat : forall a n, rsum (repeat a n) = INR n * a.
Proof. induction n; [simpl; ring|]. rewrite S_INR. simpl. rewrite IHn. ring. Qed.
Lemma areas_sum : forall L r rows, (1 <= L)%nat -> calc_pixel_areas (mw_thetas L) (mw_phis L) r = Ok rows ->
  rsum (List.concat rows) = 4 * PI * r ^ 2.
Proof.
  intros L r rows HL H. rewrite areas_closed in H by auto. injection H as <-.
  assert (Hn : INR (2 * L - 1) <> 0) by (apply not_0_INR; lia).
  assert (Q : forall k, (k <= L)%nat -> rsum (List.concat (map (fun t => repeat (2 * PI * r ^ 2 / INR (2 * L - 1) * (cos (strip_top L t) - cos (strip_bottom L t))) (2 * L - 1)) (seq 0 k)))
     = 2 * PI * r ^ 2 * (1 - cos (strip_top L k))).
  { induction k; intros Hk.
    - simpl. rewrite cos_0. ring.
    - rewrite seq_S, map_app, concat_app, rsum_app, IHk by lia. simpl map. simpl List.concat. rewrite app_nil_r, rsum_repeat.
      change (strip_top L (S k)) with (strip_bottom L k). simpl plus. field. exact Hn. }
  rewrite Q by lia. destruct L as [|L]; [lia|].
  replace (strip_top (S L) (S L)) with PI.
  - rewrite cos_PI. ring.
  - unfold strip_top. replace (2 * S L - 1)%nat with (2 * L + 1)%nat by lia. field. apply not_0_INR; lia.
Qed.
Lemma strip_order : forall L t, (t < L)%nat -> 0 <= strip_top L t < strip_bottom L t /\ strip_bottom L t <= PI.
Proof.
  intros L t H. assert (P := PI_RGT_0). assert (Hn : 0 < INR (2 * L - 1)) by (apply lt_0_INR; lia).
  assert (S0 : forall k, INR k * PI / INR (2 * L - 1) = INR k * (PI / INR (2 * L - 1))) by (intros; unfold Rdiv; ring).
  assert (Q : 0 < PI / INR (2 * L - 1)) by (apply Rdiv_lt_0_compat; auto).
  assert (B : strip_bottom L t <= PI).
  { unfold strip_bottom. apply Rmult_le_reg_r with (INR (2 * L - 1)); auto.
    unfold Rdiv. rewrite Rmult_assoc, Rinv_l, Rmult_1_r by lra. rewrite Rmult_comm.
    apply Rmult_le_compat_l; [lra|]. apply le_INR. lia. }
  split; auto. unfold strip_top, strip_bottom. destruct t.
  - split; [lra|]. rewrite S0. apply Rmult_lt_0_compat; auto. simpl. lra.
  - rewrite !S0. split.
    + apply Rmult_le_pos; [apply pos_INR|lra].
    + apply Rmult_lt_compat_r; auto. apply lt_INR. lia.
Qed.
Lemma areas_positive : forall L r rows, (1 <= L)%nat -> r <> 0 ->
  calc_pixel_areas (mw_thetas L) (mw_phis L) r = Ok rows ->
  length rows = L /\ (forall row, In row rows -> length row = (2 * L - 1)%nat /\ forall a, In a row -> 0 < a).
Proof.
  intros L r rows HL Hr H. rewrite areas_closed in H by auto. injection H as <-.
  split; [rewrite map_length, seq_length; auto|]. intros row Hrow. apply in_map_iff in Hrow.
  destruct Hrow as [t [<- Ht]]. apply in_seq in Ht. split; [apply repeat_length|].
  intros a Ha. apply repeat_spec in Ha. subst a.
  destruct (strip_order L t ltac:(lia)) as [[A B] D]. assert (P := PI_RGT_0).
  apply Rmult_lt_0_compat.
  - apply Rdiv_lt_0_compat; [|apply lt_0_INR; lia]. assert (0 < r ^ 2) by (apply pow2_gt_0; auto). nra.
  - assert (cos (strip_bottom L t) < cos (strip_top L t)) by (apply cos_decreasing_1; lra). lra.
Qed.

(** ** norm and snr *)
Lemma nrm2_vscal : forall c x, nrm2 (vscal c x) = (Cmod c) ^ 2 * nrm2 x.
Proof.
  intros c x. unfold nrm2, vscal. rewrite map_map, <- rsum_map_scal. apply rsum_map_ext.
  intros z _. rewrite Cmod_mult. ring.
Qed.
Lemma norm_nonneg : forall x, 0 <= norm x.
Proof. intros; apply sqrt_pos. Qed.
Lemma norm_zero_iff : forall x, norm x = 0 <-> (forall z, In z x -> z = RtoC 0).
Proof.
  intros x. unfold norm. split.
  - intros H. apply sqrt_eq_0 in H; [|apply nrm2_nonneg]. intros z Hz.
    assert (E : (Cmod z) ^ 2 = 0).
    { apply (rsum_zero_all (map (fun z => (Cmod z) ^ 2) x)).
      - intros a Ha. apply in_map_iff in Ha. destruct Ha as [w [<- _]]. apply pow2_ge_0.
      - exact H.
      - apply (in_map (fun z => (Cmod z) ^ 2)); auto. }
    apply Cmod_eq_0. apply pow2_zero; auto.
  - intros H. rewrite <- sqrt_0. f_equal. unfold nrm2.
    transitivity (rsum (map (fun _ => 0) x)).
    + apply rsum_map_ext. intros z Hz. rewrite (H z Hz), Cmod_0. ring.
    + rewrite rsum_const. ring.
Qed.
Lemma norm_vscal : forall c x, norm (vscal c x) = Cmod c * norm x.
Proof.
  intros c x. unfold norm. rewrite nrm2_vscal, sqrt_mult; [|apply pow2_ge_0|apply nrm2_nonneg].
  rewrite sqrt_pow2 by apply Cmod_ge_0. reflexivity.
Qed.
Lemma ln10_pos : 0 < ln 10.
Proof. rewrite <- ln_1. apply ln_increasing; lra. Qed.
Lemma log10_mult : forall a b, 0 < a -> 0 < b -> log10 (a * b) = log10 a + log10 b.
Proof. intros; unfold log10. rewrite ln_mult by auto. field. generalize ln10_pos; lra. Qed.
Lemma log10_inv : forall a, 0 < a -> log10 (/ a) = - log10 a.
Proof. intros; unfold log10. rewrite ln_Rinv by auto. field. generalize ln10_pos; lra. Qed.
Lemma log10_increasing : forall a b, 0 < a -> a < b -> log10 a < log10 b.
Proof.
  intros; unfold log10. apply Rmult_lt_compat_r; [apply Rinv_0_lt_compat, ln10_pos|apply ln_increasing; auto].
Qed.
Lemma log10_1 : log10 1 = 0.
Proof. unfold log10. rewrite ln_1. field. generalize ln10_pos; lra. Qed.
Lemma log10_10 : log10 10 = 1.
Proof. unfold log10. field. generalize ln10_pos; lra. Qed.

(** ** build_mask *)
Lemma mask_where_nth : forall p rows cols mask i j, (i < rows)%nat -> (j < cols)%nat ->
  nth j (nth i (mask_where p rows cols mask) []) 0 = if p i j then 0 else nth j (nth i mask []) 0.
Proof.
  intros. unfold mask_where. rewrite (nth_map_in _ _ _ _ 0%nat) by (rewrite seq_length; auto).
  rewrite (nth_map_in _ _ _ _ 0%nat) by (rewrite seq_length; auto). rewrite !seq_nth by auto. reflexivity.
Qed.
Lemma mask_where_shape : forall p rows cols mask,
  length (mask_where p rows cols mask) = rows /\
  forall row, In row (mask_where p rows cols mask) -> length row = cols.
Proof.
  intros. split.
  - unfold mask_where. rewrite map_length, seq_length. reflexivity.
  - intros row H. unfold mask_where in H. apply in_map_iff in H. destruct H as [i [<- _]].
    rewrite map_length, seq_length. reflexivity.
Qed.
Lemma nth_repeat_lt : forall {A} (a d : A) n i, (i < n)%nat -> nth i (repeat a n) d = a.
Proof. induction n; intros i H; [lia|]. destruct i; simpl; auto. apply IHn; lia. Qed.

Lemma build_mask_entry : forall L gal_b size i j, (i < L)%nat -> (j < 2 * L - 1)%nat ->
  let m := nth j (nth i (build_mask L (mw_thetas L) (mw_phis L) gal_b size) []) 0 in
  let theta := nth i (mw_thetas L) 0 in let phi := nth j (mw_phis L) 0 in
  (m = 0 \/ m = 1) /\
  (m = 0 <-> (Rabs (90 - degrees theta) < size \/ Rabs (gal_b (degrees phi - 180) (degrees theta - 90)) < size)).
Proof.
  intros L gal_b size i j Hi Hj. cbv zeta. unfold build_mask.
  rewrite mask_where_nth by auto.
  assert (LT : length (mw_thetas L) = L) by (unfold mw_thetas; rewrite map_length, seq_length; auto).
  assert (LP : length (mw_phis L) = (2 * L - 1)%nat) by (unfold mw_phis; rewrite map_length, seq_length; auto).
  rewrite LT, LP, mask_where_nth by auto. rewrite !nth_repeat_lt by auto.
  destruct (Rltb_spec (Rabs (90 - degrees (nth i (mw_thetas L) 0))) size);
  destruct (Rltb_spec (Rabs (gal_b (degrees (nth j (mw_phis L) 0) - 180) (degrees (nth i (mw_thetas L) 0) - 90))) size);
    (split; [auto|]; split; intros; auto; try lra).
Qed.

Lemma radians_plus : forall a b, radians (a + b) = radians a + radians b.
Proof. intros; unfold radians; field. Qed.
Lemma sin_lat_antipode : forall ra0 dec0 ra dec, sin_lat ra0 dec0 (ra - 180) (- dec) = - sin_lat ra0 dec0 ra dec.
Proof.
  intros. unfold sin_lat. replace (radians (- dec)) with (- radians dec) by (unfold radians; field).
  replace (radians (ra - 180 - ra0)) with (radians (ra - ra0) - PI) by (unfold radians; field).
  rewrite sin_neg, cos_neg, cos_minus, cos_PI, sin_PI. ring.
Qed.
Lemma galactic_antipode : forall ra0 dec0 ra dec,
  galactic_latitude ra0 dec0 (ra - 180) (- dec) = - galactic_latitude ra0 dec0 ra dec.
Proof.
  intros. unfold galactic_latitude. rewrite sin_lat_antipode, asin_opp. unfold degrees. field. apply PI_neq0.
Qed.
