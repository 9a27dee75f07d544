(** C63: thresholding and path integrals in floating point. *)
From Coq Require Import List ZArith Lia Bool Reals Lra Psatz String.
From Coquelicot Require Import Coquelicot.
From Verif Require Import PyBase PyBaseFacts Sampler SamplerSpec Ieee IeeeProof P_Ieee P_Samplers FloatOps.
Import ListNotations.
Notation length := List.length.
Open Scope R_scope.

(** ** Vocabulary *)

(** the order of floats without NaN *)
Definition fle (a b : float) : Prop :=
  match a, b with
  | NaN, _ | _, NaN => False
  | Fin x, Fin y => x <= y
  | NInf, _ | _, PInf => True
  | _, _ => False
  end.
(** rounding to a set of numbers closed under the sign, as in every IEEE
    rounding mode that is symmetric: round to nearest, towards zero *)
Record rounding (rnd : R -> float) (F : R -> Prop) : Prop := {
  ro_one : F 1; ro_zero : F 0;
  ro_fix : forall x, F x -> rnd x = Fin x;
  ro_in : forall x y, rnd x = Fin y -> F y;
  ro_num : forall x, rnd x <> NaN;
  ro_sym : forall x, rnd (- x) = fneg (rnd x);
  ro_mono : forall x y, x <= y -> fle (rnd x) (rnd y) }.
Definition sgn (x : R) : R := if Rlt_dec x 0 then -1 else if Rlt_dec 0 x then 1 else 0.

(** ** soft *)

(** for every rounding function, entry by entry *)
Theorem C63_soft_specials : forall rnd t z,
  (z = NaN \/ t = NaN -> f_soft1 rnd t z = NaN) /\
  ((z = PInf \/ z = NInf) -> t <> PInf -> f_soft1 rnd t z = NaN) /\
  (z <> NaN -> t = PInf -> f_soft1 rnd t z = Fin 0) /\
  (forall x y, z = Fin x -> t = Fin y -> Rabs x <= y -> f_soft1 rnd t z = Fin 0).
Proof.
  intros rnd t z. unfold f_soft1, f_sign1. split; [|split; [|split]].
  - intros [-> | ->]; [reflexivity|]. destruct z as [r| | |]; cbn; try reflexivity; unfold fsub; cbn;
      destruct (if Req_EM_T (Rabs r) 0 then true else false); cbn.
    all: match goal with |- fmul _ (fdiv _ ?a ?b) NaN = _ => destruct (fdiv rnd a b); reflexivity | |- fmul _ ?a NaN = _ => destruct a; reflexivity | _ => idtac end.
  - intros [-> | ->] N; cbn; destruct t; try congruence; cbn; reflexivity.
  - intros N ->. destruct z; try congruence; cbn; reflexivity.
  - intros x y -> -> H. cbn. destruct (Rle_dec (Rabs x) y); [reflexivity|contradiction].
Qed.
Print Assumptions C63_soft_specials.

Lemma sign_num : forall rnd F x, rounding rnd F -> f_sign1 rnd (Fin x) = Fin (sgn x).
Proof.
  intros rnd F x H. unfold f_sign1, sgn. cbn. destruct (Req_EM_T (Rabs x) 0) as [E|E]; cbn.
  - destruct (Req_EM_T 1 0); [lra|]. assert (x = 0) by (destruct (Req_dec x 0); [auto|apply Rabs_no_R0 in H0; contradiction]). subst x.
    destruct (Rlt_dec 0 0); [lra|]. replace (0 / 1) with 0 by field. apply (ro_fix _ _ H), (ro_zero _ _ H).
  - destruct (Req_EM_T (Rabs x) 0); [contradiction|]. destruct (Rlt_dec x 0) as [L|L].
    + rewrite Rabs_left by auto. replace (x / - x) with (- (1)) by (field; lra). rewrite (ro_sym _ _ H), (ro_fix _ _ H) by apply (ro_one _ _ H). reflexivity.
    + destruct (Rlt_dec 0 x) as [P|P]; [|exfalso; apply E; replace x with 0 by lra; apply Rabs_R0].
      rewrite Rabs_pos_eq by lra. replace (x / x) with 1 by (field; lra). apply (ro_fix _ _ H), (ro_one _ _ H).
Qed.
Lemma F_opp : forall rnd F x, rounding rnd F -> F x -> F (- x).
Proof. intros rnd F x H Hx. apply (ro_in _ _ H (- x)). rewrite (ro_sym _ _ H), (ro_fix _ _ H) by auto. reflexivity. Qed.
Lemma F_abs : forall rnd F x, rounding rnd F -> F x -> F (Rabs x).
Proof. intros rnd F x H Hx. unfold Rabs. destruct (Rcase_abs x); [eapply F_opp; eauto|auto]. Qed.

(** numbers of the format: no overflow, the sign is kept, the value is the
    rounded difference, never larger than the argument *)
Theorem C63_soft_numbers : forall rnd F x t, rounding rnd F -> F x -> 0 <= t -> t < Rabs x ->
  exists y, rnd (Rabs x - t) = Fin y /\ 0 <= y <= Rabs x /\ f_soft1 rnd (Fin t) (Fin x) = Fin (sgn x * y) /\ F (sgn x * y).
Proof.
  intros rnd F x t H Fx Ht Lt. assert (FA := F_abs _ _ _ H Fx).
  assert (B0 := ro_mono _ _ H 0 (Rabs x - t) ltac:(lra)). assert (B1 := ro_mono _ _ H (Rabs x - t) (Rabs x) ltac:(lra)).
  rewrite (ro_fix _ _ H 0 (ro_zero _ _ H)) in B0. rewrite (ro_fix _ _ H (Rabs x) FA) in B1.
  destruct (rnd (Rabs x - t)) as [y| | |] eqn:E; cbn in B0, B1; try contradiction. exists y. split; [auto|]. split; [auto|].
  assert (Fy := ro_in _ _ H _ _ E). assert (x <> 0) by (intros ->; rewrite Rabs_R0 in Lt; lra).
  assert (FS : F (sgn x * y)).
  { unfold sgn. destruct (Rlt_dec x 0); [replace (-1 * y) with (- y) by ring; eapply F_opp; eauto|].
    destruct (Rlt_dec 0 x); [rewrite Rmult_1_l; auto|lra]. }
  split; [|auto]. unfold f_soft1. rewrite (sign_num _ _ _ H). cbn. destruct (Rle_dec (Rabs x) t); [lra|].
  unfold fsub. cbn. unfold Rminus in E. rewrite E. cbn. apply (ro_fix _ _ H). auto.
Qed.
Print Assumptions C63_soft_numbers.

(** order is kept *)
Theorem C63_soft_monotone : forall rnd F x x' t y y', rounding rnd F -> F x -> F x' -> 0 <= t -> x <= x' ->
  f_soft1 rnd (Fin t) (Fin x) = Fin y -> f_soft1 rnd (Fin t) (Fin x') = Fin y' -> y <= y'.
Proof.
  intros rnd F x x' t y y' H Fx Fx' Ht Le E E'.
  assert (V : forall z v, F z -> f_soft1 rnd (Fin t) (Fin z) = Fin v ->
            (Rabs z <= t /\ v = 0) \/ (t < z /\ 0 <= v /\ rnd (z - t) = Fin v) \/ (z < - t /\ v <= 0 /\ rnd (- z - t) = Fin (- v))).
  { intros z v Fz Ez. destruct (Rle_dec (Rabs z) t) as [A|A].
    - left. rewrite (proj2 (proj2 (proj2 (C63_soft_specials rnd (Fin t) (Fin z)))) z t eq_refl eq_refl A) in Ez. injection Ez as <-. auto.
    - right. destruct (C63_soft_numbers _ _ z t H Fz Ht ltac:(lra)) as (u & U1 & U2 & U3 & _). rewrite U3 in Ez. injection Ez as <-.
      unfold sgn. destruct (Rlt_dec z 0) as [L|L].
      + right. rewrite Rabs_left in * by auto. split; [lra|]. split; [lra|]. rewrite U1. f_equal. ring.
      + left. assert (P : 0 <= z) by lra. rewrite Rabs_pos_eq in * by auto. destruct (Rlt_dec 0 z); [|lra]. split; [lra|]. split; [lra|]. rewrite U1. f_equal. ring. }
  destruct (V x y Fx E) as [(A1 & A2)|[(A1 & A2 & A3)|(A1 & A2 & A3)]]; destruct (V x' y' Fx' E') as [(B1 & B2)|[(B1 & B2 & B3)|(B1 & B2 & B3)]]; subst; try lra.
  - apply Rabs_le_between in A1. lra.
  - apply Rabs_le_between in B1. lra.
  - assert (M := ro_mono _ _ H (x - t) (x' - t) ltac:(lra)). rewrite A3, B3 in M. exact M.
  - assert (M := ro_mono _ _ H (- x' - t) (- x - t) ltac:(lra)). rewrite A3, B3 in M. cbn in M. lra.
Qed.
Print Assumptions C63_soft_monotone.

Lemma nan_in_dec : forall X, {In NaN X} + {~ In NaN X}.
Proof. intros X. apply in_dec. intros a b. destruct a as [r| | |], b as [s| | |]; try (right; discriminate); auto. destruct (Req_EM_T r s); [left; congruence|right; congruence]. Qed.

(** ** the prior: NaN exactly when an entry is *)
Theorem C63_prior_nan : forall rnd F X, rounding rnd F ->
  (f_l1 rnd X = NaN <-> In NaN X) /\ (~ In NaN X -> fle (Fin 0) (f_l1 rnd X)) /\
  (~ In NaN X -> In PInf X \/ In NInf X -> f_l1 rnd X = PInf).
Proof.
  intros rnd F X H. unfold f_l1, fsum.
  assert (P : forall a b, 0 <= a -> 0 <= b -> fle (Fin 0) (rnd (a + b))).
  { intros a b Ha Hb. rewrite <- (ro_fix _ _ H 0 (ro_zero _ _ H)). apply (ro_mono _ _ H). lra. }
  assert (G : forall X z, fle (Fin 0) z -> ~ In NaN X ->
            let v := fold_left (fadd rnd) (map fabs X) z in
            fle (Fin 0) v /\ (z = PInf \/ In PInf X \/ In NInf X -> v = PInf)).
  { clear X. induction X as [|a X IH]; intros z Hz N; cbn; [split; auto; intros [?|[[]|[]]]; auto|].
    assert (N' : ~ In NaN X) by (intros Q; apply N; now right). assert (a <> NaN) by (intros ->; apply N; now left).
    assert (Q : fle (Fin 0) (fadd rnd z (fabs a)) /\ (z = PInf \/ a = PInf \/ a = NInf -> fadd rnd z (fabs a) = PInf)).
    { destruct z as [r| | |]; cbn in Hz; try contradiction; destruct a as [s| | |]; try congruence; cbn.
      - split; [apply P; [auto|apply Rabs_pos]|intros [?|[?|?]]; discriminate].
      - split; auto.
      - split; auto.
      - split; auto.
      - split; auto.
      - split; auto. }
    destruct Q as (Q1 & Q2). destruct (IH _ Q1 N') as (I1 & I2). split; [auto|]. intros C. apply I2.
    destruct C as [C|[[C|C]|[C|C]]]; auto. }
  split; [|split].
  - split; [|intros I; apply fsum_nan; change NaN with (fabs NaN); now apply in_map].
    intros E. destruct (nan_in_dec X) as [I|I]; [auto|].
    destruct (G X (Fin 0) (Rle_refl 0) I) as (A & _). rewrite E in A. destruct A.
  - intros N. apply (G X (Fin 0) (Rle_refl 0) N).
  - intros N I. apply (G X (Fin 0) (Rle_refl 0) N). auto.
Qed.
Print Assumptions C63_prior_nan.

(** ** pixels no path crosses *)

Definition crossed (rows : list (list (nat * float))) (i : nat) : Prop := exists r a, In r rows /\ In (i, a) r.
(** equal at the pixels of a set *)
Definition agree (n : nat) (P : nat -> Prop) (x y : fvec) : Prop :=
  length x = n /\ length y = n /\ forall i, P i -> nth_error x i = nth_error y i.

Lemma agree_nth : forall n P x y i, agree n P x y -> P i -> nth i x (Fin 0) = nth i y (Fin 0).
Proof.
  intros n P x y i (L1 & L2 & A) Hi. specialize (A i Hi). destruct (nth_error x i) eqn:E.
  - symmetry in A. now rewrite (nth_error_nth _ _ _ E), (nth_error_nth _ _ _ A).
  - symmetry in A. apply nth_error_None in E. apply nth_error_None in A. now rewrite !nth_overflow.
Qed.
Lemma agree_map : forall n P x y (h : float -> float), agree n P x y -> agree n P (map h x) (map h y).
Proof.
  intros n P x y h (L1 & L2 & A). split; [now rewrite map_length|]. split; [now rewrite map_length|].
  intros i Hi. rewrite !nth_error_map, (A i Hi). reflexivity.
Qed.
Lemma agree_zip : forall n P op x y u v a b, agree n P x y -> agree n P u v -> fzip op x u = Ok a -> fzip op y v = Ok b -> agree n P a b.
Proof.
  intros n P op x y u v a b (L1 & L2 & A) (L3 & L4 & B) Ea Eb.
  destruct (fzip_length _ _ _ _ Ea) as (_ & La). destruct (fzip_length _ _ _ _ Eb) as (_ & Lb).
  unfold fzip in *. destruct (Nat.eqb_spec (length x) (length u)); [|discriminate]. destruct (Nat.eqb_spec (length y) (length v)); [|discriminate].
  injection Ea as <-. injection Eb as <-. split; [rewrite map_length, combine_length; lia|]. split; [rewrite map_length, combine_length; lia|].
  intros i Hi. rewrite !nth_error_map.
  assert (C : forall (p q : fvec), length p = length q -> nth_error (combine p q) i =
            match nth_error p i, nth_error q i with Some s, Some t => Some (s, t) | _, _ => None end).
  { clear. revert i. intros i p. revert i. induction p as [|s p IH]; intros [|i] [|t q] L; cbn in *; try discriminate; auto. }
  rewrite !C by congruence. rewrite (A i Hi), (B i Hi). reflexivity.
Qed.
Lemma agree_refl : forall n P x, length x = n -> agree n P x x.
Proof. intros; split; auto. Qed.

(** predictions do not see them, whatever is stored there *)
Theorem C63_uncrossed_forward : forall rnd n rows x y, agree n (crossed rows) x y -> f_path_forward rnd n rows x = f_path_forward rnd n rows y.
Proof.
  intros rnd n rows x y A. assert (A' := A). destruct A' as (L1 & L2 & _). unfold f_path_forward. rewrite L1, L2, Nat.eqb_refl. f_equal.
  apply map_ext_in. intros r Hr. unfold fspdot. f_equal. apply map_ext_in. intros (i & a) Hp. cbn [fst snd]. f_equal.
  eapply agree_nth; [exact A|]. exists r, a. auto.
Qed.
Print Assumptions C63_uncrossed_forward.

Section Runs.
Variables (rnd : R -> float) (G : Type) (randn laplace : nat -> G -> list R * G) (rand : G -> R * G) (lmda mu : float).
Variables (n : nat) (rows : list (list (nat * float))) (data ws : fvec) (t : float).
Local Notation fo := (fl_ops rnd randn laplace rand (f_paths rnd n rows data ws (FScal t)) lmda mu).
Hypothesis LR : forall k g, length (fst (randn k g)) = k.

Lemma step_agree : forall P delta X Y p p' gr g X' Y' g1 g2, agree n P X Y -> agree n P p p' -> length gr = n ->
  o_step fo delta X p gr g = (Ok X', g1) -> o_step fo delta Y p' gr g = (Ok Y', g2) -> g1 = g2 /\ agree n P X' Y'.
Proof.
  intros P delta X Y p p' gr g X' Y' g1 g2 A B Lg. cbn [fl_ops o_step]. unfold f_step. cbn [fp_nparams f_paths].
  destruct (randn n g) as (w & g') eqn:EW. assert (Lw : length w = n) by (specialize (LR n g); rewrite EW in LR; exact LR).
  destruct (py_fdiv rnd delta lmda) as [r|]; [|cbn; discriminate]. cbn [rbind].
  destruct (fzip (fadd rnd) (fscal rnd (fsub rnd (Fin 1) r) X) (fscal rnd r p)) as [a1|] eqn:E1; [|cbn; discriminate].
  destruct (fzip (fadd rnd) (fscal rnd (fsub rnd (Fin 1) r) Y) (fscal rnd r p')) as [b1|] eqn:E2; [|cbn; discriminate]. cbn [rbind].
  destruct (fzip (fsub rnd) a1 (fscal rnd delta gr)) as [a2|] eqn:E3; [|cbn; discriminate].
  destruct (fzip (fsub rnd) b1 (fscal rnd delta gr)) as [b2|] eqn:E4; [|cbn; discriminate]. cbn [rbind].
  intros E5 E6. assert (E5' := f_equal fst E5). assert (E6' := f_equal fst E6). assert (E5'' := f_equal snd E5). assert (E6'' := f_equal snd E6).
  cbn [fst snd] in *. split; [congruence|].
  assert (AB1 : agree n P a1 b1) by (eapply agree_zip; [| |exact E1|exact E2]; apply agree_map; auto).
  assert (AB2 : agree n P a2 b2) by (eapply agree_zip; [exact AB1| |exact E3|exact E4]; apply agree_refl; unfold fscal; now rewrite map_length).
  eapply agree_zip; [exact AB2| |exact E5'|exact E6']. apply agree_refl. unfold fscal. now rewrite !map_length.
Qed.

Lemma gradg_length : forall d v, f_gradg rnd n rows data ws d = Ok v -> length v = n.
Proof.
  intros d v. unfold f_gradg. destruct (fzip _ d data) as [a|]; [|discriminate]. cbn [rbind]. destruct (f_weigh rnd ws a) as [b|]; [|discriminate]. cbn [rbind].
  unfold f_path_adjoint. destruct (Nat.eqb _ _); [|discriminate]. intros E. injection E as <-. unfold f_adjoint_rows. now rewrite !map_length, seq_length.
Qed.

Theorem C63_uncrossed_paths : forall (P : nat -> Prop) delta, (forall i, crossed rows i -> P i) ->
  forall tr1 tr2 X Y d g, agree n P X Y ->
  path (myula_trans fo delta) (X, d, g) tr1 -> path (myula_trans fo delta) (Y, d, g) tr2 ->
  forall k X' d1 g1 Y' d2 g2, nth_error tr1 k = Some (X', d1, g1) -> nth_error tr2 k = Some (Y', d2, g2) ->
    g1 = g2 /\ d1 = d2 /\ agree n P X' Y'.
Proof.
  intros P delta HP. induction tr1 as [|s1 tr1 IH]; intros tr2 X Y d g A P1 P2 k X' d1 g1 Y' d2 g2 N1 N2; [destruct k; discriminate|].
  destruct tr2 as [|s2 tr2]; [destruct k; discriminate|].
  inversion P1 as [|? ? ? T1 Q1]; subst. inversion P2 as [|? ? ? T2 Q2]; subst.
  destruct s1 as ((x1 & e1) & h1). destruct s2 as ((x2 & e2) & h2).
  destruct T1 as (gr1 & p1 & A1 & B1 & S1 & F1). destruct T2 as (gr2 & p2 & A2 & B2 & S2 & F2).
  assert (gr1 = gr2) by congruence. subst gr2.
  assert (Lg : length gr1 = n) by (apply (gradg_length d); exact A1).
  cbn [fl_ops o_proxf fp_proxf f_paths f_soft] in B1, B2. injection B1 as <-. injection B2 as <-.
  destruct (step_agree P delta X Y _ _ gr1 g x1 x2 h1 h2 A (agree_map _ _ _ _ _ A) Lg S1 S2) as (<- & A').
  assert (e1 = e2).
  { cbn [fl_ops o_forward fp_forward f_paths] in F1, F2.
    rewrite (C63_uncrossed_forward rnd n rows x1 x2) in F1; [congruence|]. destruct A' as (L1 & L2 & A'). split; auto. }
  subst e2. destruct k as [|k]; [cbn in N1, N2; injection N1 as <- <- <-; injection N2 as <- <- <-; auto|].
  exact (IH tr2 x1 x2 e1 h1 A' Q1 Q2 k X' d1 g1 Y' d2 g2 N1 N2).
Qed.

(** ** pixels that share a path with a NaN *)

(** a datum of weight other than zero whose path crosses both *)
Definition share (i j : nat) : Prop :=
  exists k r w a b, nth_error rows k = Some r /\ nth_error ws k = Some w /\ fzerob w = false /\ In (i, a) r /\ In (j, b) r.
(** connected by at most that many paths *)
Fixpoint reach (k i j : nat) : Prop :=
  match k with O => i = j | S k => i = j \/ exists l, (l < n)%nat /\ share i l /\ reach k l j end.

Lemma adjoint_row_has : forall j k r b, (j < n)%nat -> nth_error rows k = Some r -> In (j, b) r ->
  exists rr, nth_error (f_adjoint_rows n rows) j = Some rr /\ In (k, b) rr.
Proof.
  intros j k r b Hj Hk Hb. unfold f_adjoint_rows. rewrite nth_error_map.
  assert (E : nth_error (seq 0 n) j = Some j).
  { rewrite (nth_error_nth' _ 0%nat) by now rewrite seq_length. now rewrite seq_nth. }
  rewrite E. cbn [option_map]. eexists. split; [reflexivity|]. apply in_concat.
  exists (map (fun p => (k, snd p)) (filter (fun p => Nat.eqb (fst p) j) r)). split.
  - apply in_map_iff. exists (k, r). split; [reflexivity|].
    apply (nth_error_In _ k). clear - Hk. assert (H : forall s, nth_error (combine (seq s (length rows)) rows) k = Some ((s + k)%nat, r)).
    { revert k Hk. induction rows as [|q l IH]; intros k Hk s; [destruct k; discriminate|]. destruct k as [|k]; cbn in *; [injection Hk as ->; rewrite Nat.add_0_r; reflexivity|].
      rewrite (IH k Hk (S s)). replace (S s + k)%nat with (s + S k)%nat by lia. reflexivity. }
    apply (H 0%nat).
  - apply in_map_iff. exists (j, b). split; [reflexivity|]. apply filter_In. split; [exact Hb|]. cbn. apply Nat.eqb_refl.
Qed.

Lemma spdot_nan : forall r x i a, In (i, a) r -> nan_at i x -> fspdot rnd r x = NaN.
Proof.
  intros r x i a H N. unfold fspdot. apply fsum_nan. apply in_map_iff. exists (i, a). split; [|auto]. cbn [fst snd].
  rewrite (nth_error_nth _ _ _ N). apply fmul_nan_r.
Qed.

Theorem C63_spread_step : forall delta X d g X' d' g' i j, fp_forward (f_paths rnd n rows data ws (FScal t)) X = Ok d ->
  myula_trans fo delta (X, d, g) (X', d', g') -> nan_at i X -> (j < n)%nat -> i = j \/ share i j -> nan_at j X'.
Proof.
  intros delta X d g X' d' g' i j EF (gr & p & A1 & B1 & S1 & F1) Ni Hj SH. cbn [fl_ops o_gradg o_proxf o_step o_forward] in *.
  destruct SH as [<-|(k & r & w & a & b & Rk & Wk & Wz & Ia & Ib)]; [eapply step_nan; eauto|].
  eapply step_nan; [exact S1|]. right. right. cbn [fp_gradg fp_forward f_paths] in A1, EF.
  assert (Nd : nan_at k d).
  { unfold f_path_forward in EF. destruct (Nat.eqb _ n); [|discriminate]. injection EF as <-. unfold nan_at. rewrite nth_error_map, Rk. cbn [option_map]. f_equal.
    exact (spdot_nan r X i a Ia Ni). }
  unfold f_gradg in A1. destruct (fzip (fsub rnd) d data) as [df|] eqn:E1; [|discriminate]. cbn [rbind] in A1.
  destruct (fzip_same_len _ _ _ _ _ _ E1 Nd) as (y & _ & Ndf). rewrite fsub_nan_l in Ndf.
  destruct (f_weigh rnd ws df) as [wd|] eqn:E2; [|discriminate]. cbn [rbind] in A1. unfold f_weigh in E2.
  destruct (fzip_same_len _ _ _ _ _ _ E2 Wk) as (y' & Ny & Nwd). rewrite Ndf in Ny. injection Ny as <-.
  rewrite Wz in Nwd. cbn [fzerob orb] in Nwd. rewrite fmul_nan_r, fadd_nan_r in Nwd.
  unfold f_path_adjoint in A1. destruct (Nat.eqb _ _); [|discriminate]. injection A1 as <-.
  destruct (adjoint_row_has j k r b Hj Rk Ib) as (rr & Err & Irr). unfold nan_at. rewrite nth_error_map, Err. cbn [option_map]. f_equal.
  exact (spdot_nan rr wd k b Irr Nwd).
Qed.

Theorem C63_spread_paths : forall delta tr X d g, fp_forward (f_paths rnd n rows data ws (FScal t)) X = Ok d ->
  path (myula_trans fo delta) (X, d, g) tr ->
  forall m X' d' g' k i j, nth_error tr m = Some (X', d', g') -> (k <= S m)%nat -> (i < n)%nat -> nan_at i X -> reach k i j -> nan_at j X'.
Proof.
  intros delta. induction tr as [|s tr IH]; intros X d g EF PT m X' d' g' k i j Em Hk Hi Ni RE; [destruct m; discriminate|].
  inversion PT as [|? ? ? T1 Q1]; subst. destruct s as ((x1 & e1) & h1).
  assert (E1 : fp_forward (f_paths rnd n rows data ws (FScal t)) x1 = Ok e1) by (destruct T1 as (gr & p & _ & _ & _ & F1); exact F1).
  assert (Ni1 : nan_at i x1) by (apply (C63_spread_step delta X d g x1 e1 h1 i i EF T1 Ni Hi); auto).
  destruct m as [|m].
  - cbn in Em. injection Em as <- <- <-. destruct k as [|[|k]]; [cbn in RE; congruence| |lia].
    cbn in RE. destruct RE as [->|(l & Hl & SH & <-)]; [auto|]. exact (C63_spread_step delta X d g x1 e1 h1 i l EF T1 Ni Hl (or_intror SH)).
  - cbn in Em. destruct k as [|k].
    + cbn in RE. subst j. apply (IH x1 e1 h1 E1 Q1 m X' d' g' 0%nat i i Em); cbn; auto; lia.
    + cbn in RE. destruct RE as [->|(l & Hl & SH & RE)].
      * apply (IH x1 e1 h1 E1 Q1 m X' d' g' 0%nat j j Em); cbn; auto; lia.
      * apply (IH x1 e1 h1 E1 Q1 m X' d' g' k l j Em); auto; [lia|]. exact (C63_spread_step delta X d g x1 e1 h1 i l EF T1 Ni Hl (or_intror SH)).
Qed.

(** the rows of a completed run *)
Lemma run_rows : forall prm N fuel x0 w w' c, sized (w_inst w) N -> p_nsamples prm = Z.of_nat N ->
  myula_run fo prm fuel (Some x0) w = (w', Ret tt) -> i_chain (w_inst w') = Some c ->
  exists tr d, length x0 = n /\ fp_forward (f_paths rnd n rows data ws (FScal t)) x0 = Ok d /\
    path (myula_trans fo (i_delta (w_inst w))) (x0, d, w_rng w) tr /\ length c = N /\
    forall j row, nth_error c j = Some row ->
      exists d' g', nth_error tr (Z.to_nat (save_iter (p_nburn prm) (p_ngap prm) j)) = Some (row, d', g').
Proof.
  intros prm N fuel x0 w w' c SZ EN RN EC.
  destruct (C01_myula_schedule _ _ _ _ _ _ fo prm fuel _ w w' N SZ EN RN) as (s & tr & l & ST & PT & TL & _ & LL & _ & RR & V).
  destruct s as ((x & d) & g). destruct ST as (I & F). cbn [fl_ops o_init o_forward] in I, F. unfold f_start in I. cbn [fp_nparams f_paths] in I.
  destruct (Nat.eqb_spec (length x0) n) as [Lx|]; [|discriminate]. injection I as <- <-. exists tr, d.
  split; [auto|]. split; [exact F|]. split; [exact PT|].
  destruct RR as (_ & _ & _ & _ & RR). rewrite EC in RR. destruct SZ as (_ & _ & _ & _ & S5).
  destruct (i_chain (w_inst w)) as [a0|]; [|destruct RR]. cbn in S5. destruct RR as (rws & F2 & LE & ->).
  assert (LR' : length (map e_X l) = length rws) by (clear - F2; induction F2; cbn; congruence). rewrite map_length in LR', LE.
  assert (LC : length (rws ++ skipn (length (map e_X l)) a0) = N) by (rewrite app_length, skipn_length, map_length; lia).
  split; [exact LC|]. intros j row Ej.
  assert (Hj : (j < N)%nat) by (rewrite <- LC; apply nth_error_Some; congruence). rewrite nth_error_app1 in Ej by lia.
  assert (EX : exists e, nth_error l j = Some e /\ f_row n (e_X e) = Ok row).
  { clear - F2 Ej. revert rws j F2 Ej. induction l as [|e l IH]; intros rws j F2 Ej; inversion F2; subst; [destruct j; discriminate|].
    destruct j as [|j]; cbn in *; [injection Ej as ->; eauto|]. eapply IH; eauto. }
  destruct EX as (e & Ee & Er). destruct (V j e Ee) as (((X' & d') & g') & Et & Eq).
  assert (e_X e = X') by (destruct e as ((? & ?) & ?); destruct Eq; auto).
  assert (LX' : length X' = n).
  { assert (LEN : forall tr s, path (myula_trans fo (i_delta (w_inst w))) s tr -> forall k y e h, nth_error tr k = Some (y, e, h) -> length y = n).
    { clear. induction tr as [|s' tr IH]; intros s PT k y e h E; [destruct k; discriminate|]. inversion PT as [|? ? ? T1 Q1]; subst.
      destruct k as [|k]; [|eapply IH; eauto]. cbn in E. injection E as ->. destruct s as ((x & d) & g). destruct T1 as (gr & p & _ & _ & _ & F1).
      cbn [fl_ops o_forward fp_forward f_paths] in F1. unfold f_path_forward in F1. destruct (Nat.eqb_spec (length y) n); [auto|discriminate]. }
    eapply LEN; eauto. }
  rewrite H in Er. unfold f_row in Er. rewrite LX', Nat.eqb_refl in Er. injection Er as <-. eauto.
Qed.

(** a run that starts with a NaN at pixel i: in row j every pixel within the
    number of steps is NaN *)
Theorem C63_spread_runs : forall prm N fuel x0 w w' c, sized (w_inst w) N -> p_nsamples prm = Z.of_nat N ->
  myula_run fo prm fuel (Some x0) w = (w', Ret tt) -> i_chain (w_inst w') = Some c ->
  forall i k l j row, nan_at i x0 -> reach k i l -> nth_error c j = Some row ->
    (k <= S (Z.to_nat (save_iter (p_nburn prm) (p_ngap prm) j)))%nat -> nan_at l row.
Proof.
  intros prm N fuel x0 w w' c SZ EN RN EC i k l j row Ni RE Ej Hk.
  destruct (run_rows prm N fuel x0 w w' c SZ EN RN EC) as (tr & d & Lx & EF & PT & _ & V).
  destruct (V j row Ej) as (d' & g' & Et). eapply C63_spread_paths; eauto. rewrite <- Lx. apply nth_error_Some. unfold nan_at in Ni. congruence.
Qed.

(** two runs whose starts differ at uncrossed pixels only *)
Theorem C63_uncrossed_runs : forall (P : nat -> Prop) prm N fuel fuel2 x0 y0 w1 w2 w1' w2' c1 c2, (forall i, crossed rows i -> P i) -> agree n P x0 y0 ->
  sized (w_inst w1) N -> sized (w_inst w2) N -> p_nsamples prm = Z.of_nat N ->
  i_delta (w_inst w1) = i_delta (w_inst w2) -> w_rng w1 = w_rng w2 ->
  myula_run fo prm fuel (Some x0) w1 = (w1', Ret tt) -> myula_run fo prm fuel2 (Some y0) w2 = (w2', Ret tt) ->
  i_chain (w_inst w1') = Some c1 -> i_chain (w_inst w2') = Some c2 ->
  length c1 = N /\ length c2 = N /\
  forall j r1 r2, nth_error c1 j = Some r1 -> nth_error c2 j = Some r2 -> agree n P r1 r2.
Proof.
  intros P prm N fuel fuel2 x0 y0 w1 w2 w1' w2' c1 c2 HP A Z1 Z2 EN ED ER R1 R2 C1 C2.
  destruct (run_rows prm N fuel x0 w1 w1' c1 Z1 EN R1 C1) as (tr1 & d1 & L1 & F1 & P1 & LC1 & V1).
  destruct (run_rows prm N fuel2 y0 w2 w2' c2 Z2 EN R2 C2) as (tr2 & d2 & L2 & F2 & P2 & LC2 & V2).
  split; [auto|]. split; [auto|]. intros j r1 r2 E1 E2. destruct (V1 j r1 E1) as (a & b & T1). destruct (V2 j r2 E2) as (a' & b' & T2).
  assert (d1 = d2). { cbn [fp_forward f_paths] in F1, F2. rewrite (C63_uncrossed_forward rnd n rows x0 y0) in F1; [congruence|].
    destruct A as (? & ? & A). split; auto. }
  subst d2. rewrite <- ED, <- ER in P2.
  apply (C63_uncrossed_paths P _ HP tr1 tr2 x0 y0 d1 (w_rng w1) A P1 P2 _ _ _ _ _ _ _ T1 T2).
Qed.
End Runs.
Print Assumptions C63_uncrossed_paths.
Print Assumptions C63_spread_step.
Print Assumptions C63_spread_paths.
Print Assumptions C63_spread_runs.
Print Assumptions C63_uncrossed_runs.
