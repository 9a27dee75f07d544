(** Lemmas about the SKROCK step of FloatSk.v. *)
From Coq Require Import List ZArith Lia Bool Reals Lra String.
From Coquelicot Require Import Coquelicot.
From Verif Require Import PyBase PyBaseFacts CVec Utils Forward FwdProof RSort Prior Mcmc Sampler ParamSpec ParamProof Ieee IeeeProof RepSpec ExactProof FloatSk.
Import ListNotations.
Notation length := List.length.
Open Scope R_scope.

(** ** values that no operation removes *)

(** entry [i] is of kind [P] *)
Definition has (P : float -> Prop) (i : nat) (x : fvec) : Prop := exists v, nth_error x i = Some v /\ P v.
Record absorbing (rnd : R -> float) (P : float -> Prop) : Prop := {
  ab_l : forall a b, P a -> P (fadd rnd a b);
  ab_r : forall a b, P b -> P (fadd rnd a b);
  ab_neg : forall a, P a -> P (fneg a);
  ab_mul : forall a b, P b -> P (fmul rnd a b) }.

Lemma nan_absorbs : forall rnd, absorbing rnd (eq NaN).
Proof.
  intros rnd. constructor.
  - intros a b <-. symmetry. apply fadd_nan_l.
  - intros a b <-. symmetry. apply fadd_nan_r.
  - intros a <-. reflexivity.
  - intros a b <-. symmetry. apply fmul_nan_r.
Qed.
Lemma nonfin_absorbs : forall rnd, absorbing rnd (fun v => forall z, v <> Fin z).
Proof.
  assert (N : forall x r, finf x <> Fin r /\ fneg (finf x) <> Fin r).
  { intros x r. unfold finf. destruct (total_order_T x 0) as [[L|E]|L]; split; discriminate. }
  intros rnd. constructor.
  - intros a b H r. destruct a as [x| | |]; [elim (H x eq_refl)| | |]; destruct b; cbn; discriminate.
  - intros a b H r. destruct b as [x| | |]; [elim (H x eq_refl)| | |]; destruct a; cbn; discriminate.
  - intros a H r. destruct a as [x| | |]; [elim (H x eq_refl)| | |]; cbn; discriminate.
  - intros a b H r. destruct b as [x| | |]; [elim (H x eq_refl)| | |]; destruct a; cbn; try discriminate; apply N.
Qed.

Section Step.
Variable rnd : R -> float.
Variable s : Z.
Variable f : fl_problem.
Variable lmda : float.
Section Abs.
Variable P : float -> Prop.
Hypothesis AB : absorbing rnd P.

Lemma has_zip_l : forall op a b c i, (forall u v, P u -> P (op u v)) -> fzip op a b = Ok c -> has P i a -> has P i c.
Proof. intros op a b c i H E (v & Ev & Pv). destruct (fzip_same_len _ _ _ _ _ _ E Ev) as (y & _ & Ec). exists (op v y). auto. Qed.
Lemma has_zip_r : forall op a b c i, (forall u v, P v -> P (op u v)) -> fzip op a b = Ok c -> has P i b -> has P i c.
Proof. intros op a b c i H E (v & Ev & Pv). destruct (fzip_same_len_r _ _ _ _ _ _ E Ev) as (y & _ & Ec). exists (op y v). auto. Qed.
Lemma has_map : forall h a i, (forall u, P u -> P (h u)) -> has P i a -> has P i (map h a).
Proof. intros h a i H (v & Ev & Pv). exists (h v). rewrite nth_error_map, Ev. auto. Qed.
Lemma has_scal : forall c a i, has P i a -> has P i (fscal rnd c a).
Proof. intros c a i H. apply has_map; [intros; now apply (ab_mul _ _ AB)|exact H]. Qed.
Lemma sub_l : forall u v, P u -> P (fsub rnd u v). Proof. intros. unfold fsub. now apply (ab_l _ _ AB). Qed.
Lemma sub_r : forall u v, P v -> P (fsub rnd u v). Proof. intros. unfold fsub. apply (ab_r _ _ AB). now apply (ab_neg _ _ AB). Qed.

Lemma K_eq : forall delta X j Z, f_K rnd s f lmda delta X (S (S j)) Z =
  (let* c := f_coef rnd s (S (S j)) in let '(mu, nu, k) := c in
   let* K1 := f_K rnd s f lmda delta X (S j) Z in
   let* g := f_gradlogpi rnd f lmda K1 in
   let* a := fzip (fadd rnd) (fscal rnd (fmul rnd mu delta) g) (fscal rnd nu K1) in
   let* K2 := f_K rnd s f lmda delta X j Z in
   fzip (fsub rnd) (map (fun x => fadd rnd x k) a) K2).
Proof. reflexivity. Qed.

(** one stage: the gradient, the stage before and the one before that *)
Lemma K_one : forall delta X Z K, f_K rnd s f lmda delta X 1 Z = Ok K ->
  exists mu nu k y g, f_coef rnd s 1 = Ok (mu, nu, k) /\ fzip (fadd rnd) X (fscal rnd (fmul rnd nu (fsqrt rnd (fmul rnd (Fin 2) delta))) Z) = Ok y /\
    f_gradlogpi rnd f lmda y = Ok g /\
    forall i, has P i X \/ has P i g -> has P i K.
Proof.
  intros delta X Z K E. cbn [f_K] in E. destruct (f_coef rnd s 1) as [((mu & nu) & k)|]; [|discriminate]. cbn [rbind] in E.
  destruct (fzip (fadd rnd) X _) as [y|] eqn:Ey; [|discriminate]. cbn [rbind] in E.
  destruct (f_gradlogpi rnd f lmda y) as [g|] eqn:Eg; [|discriminate]. cbn [rbind] in E.
  destruct (fzip (fadd rnd) X (fscal rnd (fmul rnd mu delta) g)) as [a|] eqn:Ea; [|discriminate]. cbn [rbind] in E.
  exists mu, nu, k, y, g. split; [reflexivity|]. split; [exact Ey|]. split; [exact Eg|]. intros i H.
  apply (has_zip_l _ _ _ _ _ (fun u v h => ab_l _ _ AB u v h) E).
  destruct H as [H|H]; [apply (has_zip_l _ _ _ _ _ (fun u v h => ab_l _ _ AB u v h) Ea H)|].
  apply (has_zip_r _ _ _ _ _ (fun u v h => ab_r _ _ AB u v h) Ea). now apply has_scal.
Qed.
Lemma K_more : forall delta X j Z K, f_K rnd s f lmda delta X (S (S j)) Z = Ok K ->
  exists K1 K2 g, f_K rnd s f lmda delta X (S j) Z = Ok K1 /\ f_K rnd s f lmda delta X j Z = Ok K2 /\
    f_gradlogpi rnd f lmda K1 = Ok g /\
    forall i, has P i K1 \/ has P i K2 \/ has P i g -> has P i K.
Proof.
  intros delta X j Z K E. rewrite K_eq in E.
  destruct (f_coef rnd s (S (S j))) as [((mu & nu) & k)|]; [|discriminate]. cbn [rbind] in E.
  destruct (f_K rnd s f lmda delta X (S j) Z) as [K1|] eqn:E1; [|discriminate]. cbn [rbind] in E.
  destruct (f_gradlogpi rnd f lmda K1) as [g|] eqn:Eg; [|discriminate]. cbn [rbind] in E.
  destruct (fzip (fadd rnd) (fscal rnd (fmul rnd mu delta) g) (fscal rnd nu K1)) as [a|] eqn:Ea; [|discriminate]. cbn [rbind] in E.
  destruct (f_K rnd s f lmda delta X j Z) as [K2|] eqn:E2; [|discriminate]. cbn [rbind] in E.
  exists K1, K2, g. split; [reflexivity|]. split; [reflexivity|]. split; [exact Eg|]. intros i H.
  assert (A : has P i a -> has P i K).
  { intros Ha. apply (has_zip_l _ _ _ _ _ (fun u v h => sub_l u v h) E). apply has_map; [|exact Ha]. intros u. apply (ab_l _ _ AB). }
  destruct H as [H|[H|H]].
  - apply A. apply (has_zip_r _ _ _ _ _ (fun u v h => ab_r _ _ AB u v h) Ea). now apply has_scal.
  - exact (has_zip_r _ _ _ _ _ (fun u v h => sub_r u v h) E H).
  - apply A. apply (has_zip_l _ _ _ _ _ (fun u v h => ab_l _ _ AB u v h) Ea). now apply has_scal.
Qed.

Lemma K_keeps : forall delta X Z i, has P i X -> forall j K, f_K rnd s f lmda delta X j Z = Ok K -> has P i K.
Proof.
  intros delta X Z i H. assert (Q : forall j, (forall K, f_K rnd s f lmda delta X j Z = Ok K -> has P i K) /\
     (forall K, f_K rnd s f lmda delta X (S j) Z = Ok K -> has P i K)).
  { induction j as [|j (I1 & I2)].
    - split; [intros K E; injection E as <-; exact H|]. intros K E. destruct (K_one _ _ _ _ E) as (mu & nu & k & y & g & _ & _ & _ & Q). auto.
    - split; [exact I2|]. intros K E. destruct (K_more _ _ _ _ _ E) as (K1 & K2 & g & E1 & E2 & _ & Q). apply Q. left. now apply I2. }
  intros j. apply Q.
Qed.

(** what a stage has, all later stages have; a gradient counts as the stage it
    belongs to *)
Lemma K_from : forall delta X Z i j Kj, (1 <= j)%nat -> f_K rnd s f lmda delta X j Z = Ok Kj -> has P i Kj ->
  forall l K, (j <= l)%nat -> f_K rnd s f lmda delta X l Z = Ok K -> has P i K.
Proof.
  intros delta X Z i j Kj Hj Ej Hi. induction l as [|l IH]; intros K Hl E; [lia|].
  destruct (Nat.eq_dec j (S l)) as [->|N]; [congruence|]. destruct l as [|l]; [lia|].
  destruct (K_more _ _ _ _ _ E) as (K1 & K2 & g & E1 & E2 & _ & Q). apply Q. left. apply IH; [lia|exact E1].
Qed.
End Abs.

Lemma K_stages : forall delta X Z j K, f_K rnd s f lmda delta X j Z = Ok K -> forall l, (l <= j)%nat -> exists K', f_K rnd s f lmda delta X l Z = Ok K'.
Proof.
  intros delta X Z. assert (AB := nan_absorbs rnd). induction j as [|j IH]; intros K E l Hl.
  - replace l with 0%nat by lia. eexists. reflexivity.
  - destruct (Nat.eq_dec l (S j)) as [->|N]; [eauto|]. destruct j as [|j]; [replace l with 0%nat by lia; eexists; reflexivity|].
    destruct (K_more _ AB _ _ _ _ _ E) as (K1 & K2 & g & E1 & _). apply (IH K1 E1). lia.
Qed.

(** ** shapes *)
Lemma rseq_ok {A B} (h : A -> res B) l m : rseq (map h l) = Ok m -> forall a, In a l -> exists b, h a = Ok b.
Proof.
  revert m. induction l as [|x l IH]; intros m E a []; cbn in E; destruct (h x) as [b|] eqn:Eb; try discriminate; cbn in E.
  - subst. eauto.
  - destruct (rseq (map h l)) as [m'|]; [|discriminate]. eauto.
Qed.
Lemma coef_ok : forall l, f_skrock_init rnd s = Ok l -> (0 < s)%Z /\ forall j, (j <= Z.to_nat s)%nat -> exists c, f_coef rnd s j = Ok c.
Proof.
  intros l. unfold f_skrock_init. destruct (Z.eqb_spec s 0); [discriminate|]. destruct (Z.ltb_spec s 0); [discriminate|]. intros E.
  split; [lia|]. intros j Hj. apply (rseq_ok _ _ _ E). apply in_seq. lia.
Qed.

Variables n m : nat.
Hypothesis HF : forall x, length x = n -> exists d, fp_forward f x = Ok d /\ length d = m.
Hypothesis HG : forall d, length d = m -> exists v, fp_gradg f d = Ok v /\ length v = n.
Hypothesis HX : forall x, length x = n -> exists v, fp_proxf f x = Ok v /\ length v = n.
Lemma gradlogpi_ok : forall X, length X = n -> exists g, f_gradlogpi rnd f lmda X = Ok g /\ length g = n.
Proof.
  intros X L. unfold f_gradlogpi. destruct (HX X L) as (p & -> & Lp). cbn [rbind].
  destruct (fzip_ok (fsub rnd) X p ltac:(congruence)) as (d & -> & Ld). cbn [rbind].
  destruct (HF X L) as (e & -> & Le). cbn [rbind]. destruct (HG e Le) as (v & -> & Lv). cbn [rbind].
  destruct (fzip_ok (fsub rnd) (map (fun x => fneg (fdiv rnd x lmda)) d) v ltac:(rewrite map_length; congruence)) as (g & -> & Lg).
  exists g. split; [reflexivity|]. rewrite Lg, map_length. congruence.
Qed.
Lemma K_ok : forall l delta X Z, f_skrock_init rnd s = Ok l -> length X = n -> length Z = n ->
  forall j, (j <= Z.to_nat s)%nat -> exists K, f_K rnd s f lmda delta X j Z = Ok K /\ length K = n.
Proof.
  intros l delta X Z0 HI LX LZ. destruct (coef_ok l HI) as (_ & HC).
  assert (FS : forall c a, length (fscal rnd c a) = length a) by (intros; apply map_length).
  assert (Q : forall j, ((j <= Z.to_nat s)%nat -> exists K, f_K rnd s f lmda delta X j Z0 = Ok K /\ length K = n) /\
    ((S j <= Z.to_nat s)%nat -> exists K, f_K rnd s f lmda delta X (S j) Z0 = Ok K /\ length K = n)).
  { induction j as [|j (I1 & I2)].
    - split; [intros _; exists X; auto|]. intros H. destruct (HC 1%nat H) as (((mu & nu) & k) & EC). cbn [f_K]. rewrite EC. cbn [rbind].
      destruct (fzip_ok (fadd rnd) X (fscal rnd (fmul rnd nu (fsqrt rnd (fmul rnd (Fin 2) delta))) Z0) ltac:(rewrite FS; congruence)) as (y & -> & Ly). cbn [rbind].
      destruct (gradlogpi_ok y ltac:(congruence)) as (g & -> & Lg). cbn [rbind].
      destruct (fzip_ok (fadd rnd) X (fscal rnd (fmul rnd mu delta) g) ltac:(rewrite FS; congruence)) as (a & -> & La). cbn [rbind].
      destruct (fzip_ok (fadd rnd) a (fscal rnd (fmul rnd k (fsqrt rnd (fmul rnd (Fin 2) delta))) Z0) ltac:(rewrite FS; congruence)) as (K & -> & LK).
      exists K. split; [reflexivity|congruence].
    - split; [exact I2|]. intros H. destruct (HC (S (S j)) H) as (((mu & nu) & k) & EC). destruct (I2 ltac:(lia)) as (K1 & E1 & L1). destruct (I1 ltac:(lia)) as (K2 & E2 & L2).
      rewrite K_eq, EC. cbn [rbind]. rewrite E1. cbn [rbind].
      destruct (gradlogpi_ok K1 L1) as (g & -> & Lg). cbn [rbind].
      destruct (fzip_ok (fadd rnd) (fscal rnd (fmul rnd mu delta) g) (fscal rnd nu K1) ltac:(rewrite !FS; congruence)) as (a & -> & La). cbn [rbind].
      rewrite E2. cbn [rbind]. rewrite FS in La.
      destruct (fzip_ok (fsub rnd) (map (fun x => fadd rnd x k) a) K2 ltac:(rewrite map_length; congruence)) as (K & -> & LK).
      exists K. split; [reflexivity|]. rewrite LK, map_length. congruence. }
  intros j. apply Q.
Qed.
End Step.

(** ** exact arithmetic *)
Lemma cheb1_exact : forall x n, f_cheb1 Fin (Fin x) n = Fin (cheb1_rec x n).
Proof.
  intros x. assert (Q : forall n, f_cheb1 Fin (Fin x) n = Fin (cheb1_rec x n) /\ f_cheb1 Fin (Fin x) (S n) = Fin (cheb1_rec x (S n))).
  { induction n as [|n (I1 & I2)]; [split; reflexivity|]. split; [exact I2|].
    change (f_cheb1 Fin (Fin x) (S (S n))) with (fsub Fin (fmul Fin (fmul Fin (Fin 2) (Fin x)) (f_cheb1 Fin (Fin x) (S n))) (f_cheb1 Fin (Fin x) n)).
    rewrite I1, I2. reflexivity. }
  apply Q.
Qed.
Lemma cheb2_exact : forall x n, f_cheb2 Fin (Fin x) n = Fin (cheb2_rec x n).
Proof.
  intros x. assert (Q : forall n, f_cheb2 Fin (Fin x) n = Fin (cheb2_rec x n) /\ f_cheb2 Fin (Fin x) (S n) = Fin (cheb2_rec x (S n))).
  { induction n as [|n (I1 & I2)]; [split; reflexivity|]. split; [exact I2|].
    change (f_cheb2 Fin (Fin x) (S (S n))) with (fsub Fin (fmul Fin (fmul Fin (Fin 2) (Fin x)) (f_cheb2 Fin (Fin x) (S n))) (f_cheb2 Fin (Fin x) n)).
    rewrite I1, I2. reflexivity. }
  apply Q.
Qed.
Lemma py_fdiv_exact : forall a b, py_fdiv Fin (Fin a) (Fin b) = if Req_EM_T b 0 then Raise ZeroDivisionError else Ok (Fin (a / b)).
Proof. intros a b. unfold py_fdiv. cbn. destruct (Req_EM_T b 0); reflexivity. Qed.

Section Exact.
Variable q : numparams.
Notation s := (n_s q).
Definition fin3 (c : R * R * R) : float * float * float := let '(a, b, d) := c in (Fin a, Fin b, Fin d).
Lemma omega_0_exact : s <> 0%Z -> f_omega_0 Fin s = Fin (omega_0 q) /\ 1 < omega_0 q.
Proof.
  intros H. assert (N : IZR (s * s) > 0) by (rewrite mult_IZR; assert (IZR s <> 0) by (intros E; apply eq_IZR in E; contradiction); nra).
  unfold f_omega_0, omega_0, f_int, flit, eta. cbn. destruct (Req_EM_T (IZR (s * s)) 0); [lra|]. cbn. rewrite <- mult_IZR. split; [reflexivity|].
  assert (0 < 5 / 100 / IZR (s * s)) by (apply Rdiv_lt_0_compat; lra). lra.
Qed.
Lemma omega_1_exact : rel_res (fun a b => a = Fin b) (f_omega_1 Fin s) (omega_1 q).
Proof.
  unfold f_omega_1, omega_1. destruct (Z.eqb_spec s 0) as [E|E]; [reflexivity|]. destruct (omega_0_exact E) as (-> & _).
  unfold chebyshev1, cheb1der. destruct (Z.ltb_spec s 0); [reflexivity|]. cbn [rbind]. destruct (Z.eqb_spec s 0); [lia|].
  unfold chebyshev2. destruct (Z.ltb_spec (s - 1) 0); [lia|]. cbn [rbind]. unfold f_cheb1der. rewrite cheb1_exact, cheb2_exact.
  rewrite Z2Nat.id by lia. unfold f_int, flit. cbn [fmul]. rewrite py_fdiv_exact.
  replace (Z.to_nat s - 1)%nat with (Z.to_nat (s - 1)) by lia. destruct (Req_EM_T _ 0); reflexivity.
Qed.
Lemma coef_exact : forall j, rel_res (fun a b => a = fin3 b) (f_coef Fin s j) (coef q j).
Proof.
  intros j. unfold f_coef, coef. assert (W := omega_1_exact). destruct (f_omega_1 Fin s) as [a|e] eqn:E1, (omega_1 q) as [b|e'] eqn:E2; cbn in W; try contradiction; [|exact W].
  subst a. cbn [rbind]. assert (NZ : s <> 0%Z). { intros E. unfold omega_1 in E2. rewrite E in E2. discriminate. }
  destruct (omega_0_exact NZ) as (-> & W0). destruct j as [|[|j]].
  - reflexivity.
  - unfold f_int, flit. cbn [fmul]. rewrite !py_fdiv_exact. destruct (Req_EM_T (omega_0 q) 0); [lra|]. cbn [rbind fdiv]. destruct (Req_EM_T 2 0); [lra|]. reflexivity.
  - unfold chebyshev1. destruct (Z.ltb_spec (Z.of_nat (S (S j)) - 1) 0); [lia|]. cbn [rbind]. destruct (Z.ltb_spec (Z.of_nat (S (S j))) 0); [lia|]. cbn [rbind].
    rewrite !cheb1_exact, py_fdiv_exact. replace (S (S j) - 1)%nat with (Z.to_nat (Z.of_nat (S (S j)) - 1)) by lia. rewrite Nat2Z.id.
    destruct (Req_EM_T _ 0); [reflexivity|]. cbn. reflexivity.
Qed.
Lemma init_exact : rel_res (fun a b => a = map fin3 b) (f_skrock_init Fin s) (skrock_init q).
Proof.
  unfold f_skrock_init, skrock_init. destruct (Z.eqb_spec s 0); [reflexivity|]. destruct (Z.ltb_spec s 0) as [L|L].
  - replace (Z.to_nat s) with 0%nat by lia. cbn. assert (H := coef_exact 0). unfold coef in *. unfold omega_1, chebyshev1.
    destruct (Z.eqb_spec s 0); [contradiction|]. destruct (Z.ltb_spec s 0); [reflexivity|lia].
  - generalize (seq 0 (Z.to_nat s + 1)). induction l as [|j l IH]; [reflexivity|]. cbn [map rseq]. assert (H := coef_exact j).
    destruct (f_coef Fin s j) as [a|e], (coef q j) as [b|e']; cbn in H; try contradiction; [|exact H]. subst a. cbn [rbind].
    destruct (rseq (map (f_coef Fin s) l)) as [u|], (rseq (map (coef q) l)) as [v|]; cbn in IH |- *; try contradiction; congruence.
Qed.

Context {G : Type}.
Variable R0 : rng G.
Variable n m : nat.
Variable f : fl_problem.
Variable F : forward_op.
Variable pr : prior_obj.
Hypothesis HP : same_problem n m f F pr.
Hypothesis HL : 0 < n_lmda q.
Notation l := (n_lmda q).

Lemma gradlogpi_exact : forall x y, same_vec n x y -> rel_res (same_vec n) (f_gradlogpi Fin f (Fin l) x) (gradlogpi F pr q y None).
Proof.
  intros x y H. unfold f_gradlogpi, gradlogpi. assert (P := sp_proxf _ _ _ _ _ HP x y H). assert (E := sp_forward _ _ _ _ _ HP x y H).
  destruct (fp_proxf f x) as [p|], (pr_proxf pr y) as [p'|]; cbn in P; try contradiction; cbn [rbind]; [|exact P].
  destruct H as (v & Lv & -> & ->). destruct P as (u & Lu & -> & ->).
  rewrite (fzip_fin (fsub Fin) Rminus), np_sub_r by (try apply fsub_fin; congruence). cbn [rbind].
  destruct (fp_forward f (map Fin v)) as [d|], (fo_forward F (map RtoC v)) as [d'|]; cbn in E; try contradiction; cbn [rbind]; [|exact E].
  assert (Q := sp_gradg _ _ _ _ _ HP _ _ E). destruct (fp_gradg f d) as [g|], (fo_gradg F d') as [g'|]; cbn in Q; try contradiction; cbn [rbind]; [|exact Q].
  destruct Q as (w & Lw & -> & ->).
  replace (map (fun x => fneg (fdiv Fin x (Fin l))) (map Fin (map2 Rminus v u))) with (map Fin (map Ropp (map (Rmult (/ l)) (map2 Rminus v u)))).
  2:{ rewrite !map_map. apply map_ext. intros a. cbn. destruct (Req_EM_T l 0); [lra|]. cbn. f_equal. field. lra. }
  assert (L2 : length (map2 Rminus v u) = n) by (rewrite map2_len; congruence).
  rewrite vscal_r, vopp_r. rewrite (fzip_fin (fsub Fin) Rminus), np_sub_r by (try apply fsub_fin; rewrite !map_length; congruence).
  eexists. split; [|split; reflexivity]. rewrite map2_len; rewrite !map_length; congruence.
Qed.

Lemma K_exact : forall d x y z w, 0 < d -> same_vec n x y -> same_vec n z w ->
  forall j, rel_res (same_vec n) (f_K Fin s f (Fin l) (Fin d) x j z) (K_recursion F pr q d y j w).
Proof.
  intros d x y z w Hd Hx Hz.
  assert (Q : forall j, rel_res (same_vec n) (f_K Fin s f (Fin l) (Fin d) x j z) (K_recursion F pr q d y j w) /\
     rel_res (same_vec n) (f_K Fin s f (Fin l) (Fin d) x (S j) z) (K_recursion F pr q d y (S j) w)); [|intros j; apply Q].
  induction j as [|j (I1 & I2)]; (split; [try exact Hx; try exact I2|]).
  - cbn [f_K K_recursion]. assert (H := coef_exact 1). destruct (f_coef Fin s 1) as [c|e], (coef q 1) as [c'|e']; cbn in H; try contradiction; [|exact H].
    subst c. destruct c' as ((mu & nu) & k). cbn [rbind fin3]. destruct Hx as (v & Lv & -> & ->). destruct Hz as (u & Lu & -> & ->).
    cbn [fmul fsqrt]. destruct (Rlt_dec (2 * d) 0); [lra|]. cbn [fmul]. rewrite !fscal_fin, !vscal_r.
    rewrite (fzip_fin (fadd Fin) Rplus), np_add_r by (try apply fadd_fin; rewrite map_length; congruence). cbn [rbind].
    set (t := map2 Rplus v _). assert (Lt : length t = n) by (unfold t; rewrite map2_len; rewrite ?map_length; congruence).
    assert (GL := gradlogpi_exact (map Fin t) (map RtoC t) (ex_intro _ t (conj Lt (conj eq_refl eq_refl)))).
    destruct (f_gradlogpi Fin f (Fin l) (map Fin t)) as [g|], (gradlogpi F pr q (map RtoC t) None) as [g'|]; cbn in GL; try contradiction; cbn [rbind]; [|exact GL].
    destruct GL as (gl & Lg & -> & ->). rewrite fscal_fin, vscal_r.
    rewrite (fzip_fin (fadd Fin) Rplus), np_add_r by (try apply fadd_fin; rewrite map_length; congruence). cbn [rbind].
    assert (La : length (map2 Rplus v (map (Rmult (mu * d)) gl)) = n) by (rewrite map2_len; rewrite ?map_length; congruence).
    rewrite (fzip_fin (fadd Fin) Rplus), np_add_r by (try apply fadd_fin; rewrite map_length; congruence).
    eexists. split; [|split; reflexivity]. rewrite map2_len; rewrite ?map_length; congruence.
  - rewrite K_eq. change (K_recursion F pr q d y (S (S j)) w) with
      (let* c := coef q (S (S j)) in let '(mu, nu, k) := c in
       let* K1 := K_recursion F pr q d y (S j) w in
       let* gr := gradlogpi F pr q K1 None in
       let* a := np_add (vscal (RtoC (mu * d)) gr) (vscal (RtoC nu) K1) in
       let* K2 := K_recursion F pr q d y j w in
       np_sub (vshift (RtoC k) a) K2).
    assert (H := coef_exact (S (S j))). destruct (f_coef Fin s (S (S j))) as [c|e], (coef q (S (S j))) as [c'|e']; cbn in H; try contradiction; [|exact H].
    subst c. destruct c' as ((mu & nu) & k). cbn [rbind fin3].
    destruct (f_K Fin s f (Fin l) (Fin d) x (S j) z) as [K1|], (K_recursion F pr q d y (S j) w) as [K1'|]; cbn in I2; try contradiction; cbn [rbind]; [|exact I2].
    assert (GL := gradlogpi_exact _ _ I2). destruct I2 as (t & Lt & -> & ->).
    destruct (f_gradlogpi Fin f (Fin l) (map Fin t)) as [g|], (gradlogpi F pr q (map RtoC t) None) as [g'|]; cbn in GL; try contradiction; cbn [rbind]; [|exact GL].
    destruct GL as (gl & Lg & -> & ->). cbn [fmul]. rewrite !fscal_fin, !vscal_r.
    rewrite (fzip_fin (fadd Fin) Rplus), np_add_r by (try apply fadd_fin; rewrite !map_length; congruence). cbn [rbind].
    destruct (f_K Fin s f (Fin l) (Fin d) x j z) as [K2|], (K_recursion F pr q d y j w) as [K2'|]; cbn in I1; try contradiction; cbn [rbind]; [|exact I1].
    destruct I1 as (t2 & Lt2 & -> & ->). set (a := map2 Rplus _ _).
    assert (La : length a = n) by (unfold a; rewrite map2_len; rewrite ?map_length; congruence).
    replace (map (fun x0 => fadd Fin x0 (Fin k)) (map Fin a)) with (map Fin (map (fun x0 => x0 + k) a)) by (rewrite !map_map; reflexivity).
    replace (vshift (RtoC k) (map RtoC a)) with (map RtoC (map (fun x0 => x0 + k) a)).
    2:{ unfold vshift. rewrite !map_map. apply map_ext. intros b. apply C_ext; cbn; ring. }
    rewrite (fzip_fin (fsub Fin) Rminus), np_sub_r by (try apply fsub_fin; rewrite map_length; congruence).
    eexists. split; [|split; reflexivity]. rewrite map2_len; rewrite ?map_length; congruence.
Qed.
End Exact.
