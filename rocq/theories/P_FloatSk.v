(** C65: SKROCK in floating point. *)
From Coq Require Import List ZArith Lia Bool Reals Lra Psatz String.
From Coquelicot Require Import Coquelicot.
From Verif Require Import PyBase PyBaseFacts CVec Forward Prior Mcmc Sampler SamplerSpec SamplerFacts ParamSpec RepSpec Ieee IeeeProof P_Ieee ExactProof P_Param P_Samplers P_Works P_Mcmc
  FloatOps P_FloatOps P_FloatOpsB FloatSk FloatSkProof.
Import ListNotations.
Notation length := List.length.
Open Scope R_scope.

(** ** construction *)

(** any rounding: the exceptions of SKROCK.__init__, and one triple of
    coefficients for every stage *)
Theorem C65_construction : forall rnd s,
  (s = 0%Z -> f_skrock_init rnd s = Raise ZeroDivisionError) /\
  ((s < 0)%Z -> f_skrock_init rnd s = Raise ValueError) /\
  (forall l, f_skrock_init rnd s = Ok l -> (0 < s)%Z /\ length l = S (Z.to_nat s) /\
     forall j, (j <= Z.to_nat s)%nat -> f_coef rnd s j = Ok (nth j l (NaN, NaN, NaN))) /\
  (forall e, (0 < s)%Z -> f_skrock_init rnd s = Raise e -> e = ZeroDivisionError).
Proof.
  intros rnd s. split; [intros ->; reflexivity|]. split; [|split].
  - intros H. unfold f_skrock_init. destruct (Z.eqb_spec s 0); [lia|]. destruct (Z.ltb_spec s 0); [reflexivity|lia].
  - intros l E. split; [apply (coef_ok rnd s l E)|]. unfold f_skrock_init in E. destruct (Z.eqb_spec s 0); [discriminate|]. destruct (Z.ltb_spec s 0); [discriminate|].
    assert (Q : map Ok l = map (f_coef rnd s) (seq 0 (Z.to_nat s + 1))).
    { revert E. generalize (map (f_coef rnd s) (seq 0 (Z.to_nat s + 1))). clear. intros r. revert l.
      induction r as [|[c|] r IH]; intros l E; cbn in E; try discriminate; [injection E as <-; reflexivity|].
      destruct (rseq r) as [l'|]; cbn in E; [|discriminate]. injection E as <-. simpl. f_equal. auto. }
    assert (L : length l = S (Z.to_nat s)) by (apply (f_equal (@List.length _)) in Q; rewrite !map_length, seq_length in Q; lia).
    split; [exact L|]. intros j Hj. assert (H9 := f_equal (fun l => nth_error l j) Q). cbv beta in H9. rewrite !nth_error_map in H9.
    rewrite (nth_error_nth' l (NaN, NaN, NaN)) in H9 by lia. rewrite (nth_error_nth' (seq 0 (Z.to_nat s + 1)) 0%nat) in H9 by (rewrite seq_length; lia).
    rewrite seq_nth in H9 by lia. cbn [option_map] in H9. rewrite Nat.add_0_l in H9. congruence.
  - intros e H. unfold f_skrock_init. destruct (Z.eqb_spec s 0); [lia|]. destruct (Z.ltb_spec s 0); [lia|].
    assert (D : forall a b e, py_fdiv rnd a b = Raise e -> e = ZeroDivisionError).
    { intros a b e'. unfold py_fdiv. destruct b as [x| | |]; try discriminate. destruct (Req_EM_T x 0); [congruence|discriminate]. }
    assert (C : forall j e, f_coef rnd s j = Raise e -> e = ZeroDivisionError).
    { intros j e'. unfold f_coef, f_omega_1. destruct (Z.eqb_spec s 0); [lia|]. destruct (Z.ltb_spec s 0); [lia|].
      destruct (py_fdiv rnd _ _) as [w1|e1] eqn:E1; cbn [rbind]; [|intros X; injection X as <-; eauto].
      destruct j as [|[|j]]; [discriminate| |].
      - destruct (py_fdiv rnd w1 _) as [w2|e2] eqn:E2; cbn [rbind]; [|intros X; injection X as <-; eauto].
        destruct (py_fdiv rnd (fmul rnd _ w1) _) as [w3|e3] eqn:E3; cbn [rbind]; [discriminate|intros X; injection X as <-; eauto].
      - cbv iota. match goal with |- rbind ?u _ = _ -> _ => destruct u as [w2|e2] eqn:E2 end; cbn [rbind]; [intros X; discriminate X|intros X; injection X as <-; eauto]. }
    generalize (seq 0 (Z.to_nat s + 1)). induction l as [|j l IH]; [intros X; discriminate X|]. cbn [map rseq].
    destruct (f_coef rnd s j) as [c|e1] eqn:E; cbn [rbind]; [|intros X; injection X as <-; eauto].
    destruct (rseq (map (f_coef rnd s) l)) as [?|e2]; cbn [rbind]; intros X; [discriminate X|]. injection X as <-. auto.
Qed.
Print Assumptions C65_construction.

(** the coefficients, for every rounding: T is the Chebyshev recurrence of the
    first kind, U that of the second kind, each operation rounded *)
Definition recurrence (rnd : R -> float) (x a : float) (T : nat -> float) : Prop :=
  T 0%nat = Fin 1 /\ T 1%nat = a /\ forall k, T (S (S k)) = fsub rnd (fmul rnd (fmul rnd (Fin 2) x) (T (S k))) (T k).
Theorem C65_coefficients : forall rnd s w1 T U T1,
  let w0 := fadd rnd (Fin 1) (fdiv rnd (rnd (5 / 100)) (rnd (IZR (s * s)))) in
  (0 < s)%Z -> recurrence rnd w0 w0 T -> recurrence rnd w0 (fmul rnd (Fin 2) w0) U -> recurrence rnd w1 w1 T1 ->
  py_fdiv rnd (T (Z.to_nat s)) (fmul rnd (rnd (IZR s)) (U (Z.to_nat s - 1)%nat)) = Ok w1 ->
  f_coef rnd s 0 = Ok (Fin 0, Fin 0, Fin 0) /\
  (forall mu k, py_fdiv rnd w1 w0 = Ok mu -> py_fdiv rnd (fmul rnd (rnd (IZR s)) w1) w0 = Ok k ->
     f_coef rnd s 1 = Ok (mu, fdiv rnd (fmul rnd (rnd (IZR s)) w1) (Fin 2), k)) /\
  (forall j c, (2 <= j)%nat -> py_fdiv rnd (T (j - 1)%nat) (T1 j) = Ok c ->
     f_coef rnd s j = Ok (fmul rnd (fmul rnd (Fin 2) w1) c, fmul rnd (fmul rnd (Fin 2) w0) c, rnd (1 + - 0))).
Proof.
  intros rnd s w1 T U T1 w0 Hs RT RU R1 EW.
  assert (CH : forall x T k, recurrence rnd x x T -> f_cheb1 rnd x k = T k).
  { intros x V k (A & B & C). assert (Q : forall k, f_cheb1 rnd x k = V k /\ f_cheb1 rnd x (S k) = V (S k)); [|apply Q].
    induction k0 as [|k0 (I1 & I2)]; [split; [rewrite A|rewrite B]; reflexivity|]. split; [exact I2|]. rewrite C, <- I1, <- I2. reflexivity. }
  assert (C2 : forall x T k, recurrence rnd x (fmul rnd (Fin 2) x) T -> f_cheb2 rnd x k = T k).
  { intros x V k (A & B & C). assert (Q : forall k, f_cheb2 rnd x k = V k /\ f_cheb2 rnd x (S k) = V (S k)); [|apply Q].
    induction k0 as [|k0 (I1 & I2)]; [split; [rewrite A|rewrite B]; reflexivity|]. split; [exact I2|]. rewrite C, <- I1, <- I2. reflexivity. }
  assert (E0 : f_omega_0 rnd s = w0) by reflexivity.
  assert (E1 : f_omega_1 rnd s = Ok w1).
  { unfold f_omega_1. destruct (Z.eqb_spec s 0); [lia|]. destruct (Z.ltb_spec s 0); [lia|]. rewrite E0. unfold f_cheb1der, f_int, flit.
    rewrite (CH _ _ _ RT), (C2 _ _ _ RU), Z2Nat.id by lia. exact EW. }
  unfold f_coef. rewrite E0, E1. cbn [rbind]. split; [reflexivity|]. split.
  - intros mu k -> Ek. cbn [rbind]. unfold f_int, flit. rewrite Ek. reflexivity.
  - intros [|[|j]] c Hj Ec; [lia|lia|]. rewrite (CH _ _ _ RT), (CH _ _ _ R1), Ec. reflexivity.
Qed.
Print Assumptions C65_coefficients.

(** with exact arithmetic they are those of the real-number model *)
Theorem C65_exact_coefficients : forall q,
  rel_res (fun a b => a = map (fun c => let '(mu, nu, k) := c in (Fin mu, Fin nu, Fin k)) b) (f_skrock_init Fin (n_s q)) (skrock_init q).
Proof. intros q. apply init_exact. Qed.
Print Assumptions C65_exact_coefficients.

(** ** one step *)

Lemma entries_eq {A} (a b : list A) : (forall i, nth_error a i = nth_error b i) -> a = b.
Proof.
  revert b. induction a as [|x a IH]; intros [|y b] H; [reflexivity|specialize (H 0%nat); discriminate|specialize (H 0%nat); discriminate|].
  assert (H0 := H 0%nat). injection H0 as ->. f_equal. apply IH. intros i. exact (H (S i)).
Qed.

(** every stage, entry by entry: the first from X and the noise z, the next from
    the two before.  [grad] is what _gradlogpi returns there *)
Theorem C65_stages : forall rnd s f lmda delta X Z, length Z = length X ->
  f_K rnd s f lmda delta X 0 Z = Ok X /\
  (forall mu nu k g y, f_coef rnd s 1 = Ok (mu, nu, k) -> length y = length X -> length g = length X ->
    (forall i x z, nth_error X i = Some x -> nth_error Z i = Some z ->
       nth_error y i = Some (fadd rnd x (fmul rnd (fmul rnd nu (fsqrt rnd (fmul rnd (Fin 2) delta))) z))) ->
    f_gradlogpi rnd f lmda y = Ok g -> exists K, f_K rnd s f lmda delta X 1 Z = Ok K /\ length K = length X /\
    forall i x z a, nth_error X i = Some x -> nth_error Z i = Some z -> nth_error g i = Some a ->
      nth_error K i = Some (fadd rnd (fadd rnd x (fmul rnd (fmul rnd mu delta) a)) (fmul rnd (fmul rnd k (fsqrt rnd (fmul rnd (Fin 2) delta))) z))) /\
  (forall j mu nu k K1 K2 g, f_coef rnd s (S (S j)) = Ok (mu, nu, k) ->
    f_K rnd s f lmda delta X (S j) Z = Ok K1 -> f_K rnd s f lmda delta X j Z = Ok K2 -> f_gradlogpi rnd f lmda K1 = Ok g ->
    length K1 = length X -> length K2 = length X -> length g = length X ->
    exists K, f_K rnd s f lmda delta X (S (S j)) Z = Ok K /\ length K = length X /\
    forall i x1 x2 a, nth_error K1 i = Some x1 -> nth_error K2 i = Some x2 -> nth_error g i = Some a ->
      nth_error K i = Some (fsub rnd (fadd rnd (fadd rnd (fmul rnd (fmul rnd mu delta) a) (fmul rnd nu x1)) k) x2)).
Proof.
  intros rnd s f lmda delta X Z0 LZ. split; [reflexivity|].
  assert (SN : forall c (v : fvec) i x, nth_error v i = Some x -> nth_error (fscal rnd c v) i = Some (fmul rnd c x)) by (intros c v i x E; unfold fscal; rewrite nth_error_map, E; reflexivity).
  assert (SL : forall c (v : fvec), length (fscal rnd c v) = length v) by (intros; apply map_length).
  split.
  - intros mu nu k g y EC Ly Lg Hy EG. cbn [f_K]. rewrite EC. cbn [rbind].
    destruct (fzip_ok (fadd rnd) X (fscal rnd (fmul rnd nu (fsqrt rnd (fmul rnd (Fin 2) delta))) Z0) ltac:(rewrite SL; congruence)) as (y' & Ey & Ly').
    assert (y' = y).
    { apply entries_eq. intros i. destruct (nth_error X i) as [x|] eqn:Ex.
      - destruct (nth_error Z0 i) as [z|] eqn:Ez; [|apply nth_error_None in Ez; assert (i < length X)%nat by (apply nth_error_Some; congruence); lia].
        rewrite (Hy i x z Ex Ez). apply (fzip_nth _ _ _ _ _ _ _ Ey Ex (SN _ _ _ _ Ez)).
      - apply nth_error_None in Ex. rewrite (proj2 (nth_error_None y' i)), (proj2 (nth_error_None y i)) by lia. reflexivity. }
    subst y'. rewrite Ey. cbn [rbind]. rewrite EG. cbn [rbind].
    destruct (fzip_ok (fadd rnd) X (fscal rnd (fmul rnd mu delta) g) ltac:(rewrite SL; congruence)) as (a & Ea & La). rewrite Ea. cbn [rbind].
    destruct (fzip_ok (fadd rnd) a (fscal rnd (fmul rnd k (fsqrt rnd (fmul rnd (Fin 2) delta))) Z0) ltac:(rewrite SL; congruence)) as (K & EK & LK). rewrite EK.
    exists K. split; [reflexivity|]. split; [congruence|]. intros i x z b Ex Ez Eb.
    apply (fzip_nth _ _ _ _ _ _ _ EK); [|now apply SN]. apply (fzip_nth _ _ _ _ _ _ _ Ea Ex). now apply SN.
  - intros j mu nu k K1 K2 g EC E1 E2 EG L1 L2 Lg. rewrite K_eq, EC. cbn [rbind]. rewrite E1. cbn [rbind]. rewrite EG. cbn [rbind].
    destruct (fzip_ok (fadd rnd) (fscal rnd (fmul rnd mu delta) g) (fscal rnd nu K1) ltac:(rewrite !SL; congruence)) as (a & Ea & La). rewrite Ea. cbn [rbind].
    rewrite E2. cbn [rbind]. rewrite SL in La.
    destruct (fzip_ok (fsub rnd) (map (fun x => fadd rnd x k) a) K2 ltac:(rewrite map_length; congruence)) as (K & EK & LK). rewrite EK.
    exists K. split; [reflexivity|]. split; [rewrite LK, map_length; congruence|]. intros i x1 x2 b Ex1 Ex2 Eb.
    refine (fzip_nth _ _ _ _ _ _ _ EK _ Ex2). rewrite nth_error_map.
    rewrite (fzip_nth _ _ _ _ _ _ _ Ea (SN _ _ _ _ Eb) (SN _ _ _ _ Ex1)). reflexivity.
Qed.
Print Assumptions C65_stages.

(** the gradient of the log posterior, entry by entry; lmda may be zero *)
Theorem C65_gradient : forall rnd f lmda X p d v, fp_proxf f X = Ok p -> fp_forward f X = Ok d -> fp_gradg f d = Ok v ->
  length p = length X -> length v = length X ->
  exists g, f_gradlogpi rnd f lmda X = Ok g /\ length g = length X /\
  forall i x a b, nth_error X i = Some x -> nth_error p i = Some a -> nth_error v i = Some b ->
    nth_error g i = Some (fsub rnd (fneg (fdiv rnd (fsub rnd x a) lmda)) b).
Proof.
  intros rnd f lmda X p d v EP EF EV Lp Lv. unfold f_gradlogpi. rewrite EP. cbn [rbind].
  destruct (fzip_ok (fsub rnd) X p ltac:(congruence)) as (e & Ee & Le). rewrite Ee. cbn [rbind]. rewrite EF. cbn [rbind]. rewrite EV. cbn [rbind].
  destruct (fzip_ok (fsub rnd) (map (fun x => fneg (fdiv rnd x lmda)) e) v ltac:(rewrite map_length; congruence)) as (g & Eg & Lg). rewrite Eg.
  exists g. split; [reflexivity|]. split; [rewrite Lg, map_length; congruence|]. intros i x a b Ex Ea Eb.
  refine (fzip_nth _ _ _ _ _ _ _ Eg _ Eb). rewrite nth_error_map, (fzip_nth _ _ _ _ _ _ _ Ee Ex Ea). reflexivity.
Qed.
Print Assumptions C65_gradient.

(** ** exact arithmetic: SKROCK makes the run of the real-number model *)
Theorem C65_exact_runs : forall G (R0 : rng G) n m f F pr q prm fuel i j w v,
  (forall k g, List.length (fst (g_randn R0 k g)) = k /\ List.length (fst (g_laplace R0 k g)) = k) ->
  (forall g, 0 < fst (g_rand R0 g)) -> same_problem n m f F pr -> n_complex q = false -> 0 < n_lmda q ->
  same_start n i j -> rel_world (same_vec n) (same_vec m) same_num same_step eq w v ->
  rel_run (same_vec n) (same_vec m) same_num same_step eq
    (skrock_run (fl_sk_ops Fin (n_s q) (g_randn R0) (g_laplace R0) (g_rand R0) f (Fin (n_lmda q)) (Fin (n_mu q))) prm fuel i w)
    (skrock_run (mcmc_ops R0 F pr q) prm fuel j v).
Proof.
  intros G R0 n m f F pr q prm fuel i j w v HG HU HP HC HL HI HW.
  pose proof (exact_ops R0 n m f F pr q HG HU HP HC HL) as HO.
  set (o := fl_sk_ops Fin (n_s q) (g_randn R0) (g_laplace R0) (g_rand R0) f (Fin (n_lmda q)) (Fin (n_mu q))).
  assert (HO' : rel_ops (same_vec n) (same_vec m) same_num same_step eq (same_start n) o (mcmc_ops R0 F pr q)) by (destruct HO; constructor; assumption).
  destruct (C59_parametric _ _ _ _ _ _ _ _ _ _ _ _ _ _ _ _ _ _ o (mcmc_ops R0 F pr q) prm fuel i j w v HO' HI HW) as (_ & _ & B & _). apply B.
  intros p p' x x' g g' (-> & Hp) Hx <-. cbn [o fl_sk_ops o_skstep mcmc_ops]. rewrite C16_step, HC. unfold f_skstep, noise.
  assert (Lx : length x = n /\ length x' = n) by (destruct Hx as (u & Lu & -> & ->); rewrite !map_length; auto). destruct Lx as (-> & ->).
  destruct (HG n g) as (LG & _). destruct (g_randn R0 n g) as (z & g1). cbn [fst] in LG. split; [|reflexivity]. cbn [fst].
  apply (K_exact q n m f F pr HP HL); auto. exists z. auto.
Qed.
Print Assumptions C65_exact_runs.

(** ** runs end: any rounding, any values; lmda = 0 is no obstacle *)
Theorem C65_runs_end : forall rnd s l G (randn laplace : nat -> G -> list R * G) rand f lmda mu n m prm fuel start w k,
  (forall k g, List.length (fst (randn k g)) = k) -> (forall k g, List.length (fst (laplace k g)) = k) ->
  f_skrock_init rnd s = Ok l -> float_shapes f n m -> (forall x, start = Some x -> List.length x = n) ->
  sized (w_inst w) k -> p_nsamples prm = Z.of_nat k -> ~ line_array_missing (w_inst w) ->
  (total_iters (p_nburn prm) (p_ngap prm) k <= fuel)%nat ->
  exists w', skrock_run (fl_sk_ops rnd s randn laplace rand f lmda mu) prm fuel start w = (w', Ret tt).
Proof.
  intros rnd s l G randn laplace rand f lmda mu n m prm fuel start w k LR LL HI S ST Z N L F.
  (* the operations SKROCK does not use, with another lmda *)
  set (o := let u := fl_ops rnd randn laplace rand f (Fin 1) mu in {|
    o_init := o_init u; o_forward := o_forward u; o_gradg := o_gradg u; o_proxf := o_proxf u; o_logpi := o_logpi u; o_step := o_step u;
    o_skstep := f_skstep rnd s randn f lmda;
    o_logtrans := o_logtrans u; o_logrand := o_logrand u; o_kadd := o_kadd u; o_ksub := o_ksub u; o_kltb := o_kltb u; o_tune := o_tune u;
    o_rowV := o_rowV u; o_rowD := o_rowD u; o_rowK := o_rowK u; o_zeroV := o_zeroV u; o_zeroD := o_zeroD u; o_zeroK := o_zeroK u |}).
  change (exists w', skrock_run o prm fuel start w = (w', Ret tt)).
  assert (NZ : Fin 1 <> Fin 0) by (intros H; injection H; lra).
  destruct (float_works rnd G randn laplace rand f (Fin 1) mu n m start LR LL S NZ ST) as (W1 & W2 & W3 & W4 & W5 & W6 & _ & W8 & W9 & W10).
  assert (W : works_on o (fun x => List.length x = n) (fun d => List.length d = m) start).
  { split; [exact W1|]. split; [exact W2|]. split; [exact W3|]. split; [exact W4|]. split; [exact W5|]. split; [exact W6|]. split; [|split; [exact W8|split; [exact W9|exact W10]]].
    intros p x g Lx. cbn [o o_skstep]. unfold f_skstep. specialize (LR (length x) g). destruct (randn (length x) g) as (z & g'). cbn in LR.
    destruct S as (_ & _ & _ & S5 & S6 & S7 & _).
    destruct (K_ok rnd s f lmda n m S5 S6 S7 l p x (map Fin z) HI Lx ltac:(rewrite map_length; congruence) (Z.to_nat s) (le_n _)) as (K & -> & LK). eauto. }
  exact (proj2 (C01_terminates_on _ _ _ _ _ _ o _ _ prm fuel start w k W Z N F L)).
Qed.
Print Assumptions C65_runs_end.

(** ** NaN and infinities stay *)

(** along a chain, for any operators and any rounding: an entry that is NaN stays
    NaN, an entry that is not a finite number never becomes one *)
Theorem C65_stays : forall rnd s G (randn laplace : nat -> G -> list R * G) rand f lmda mu delta tr st i,
  let o := fl_sk_ops rnd s randn laplace rand f lmda mu in
  path (skrock_trans o delta) st tr ->
  (nan_at i (fst (fst st)) -> List.Forall (fun st' => nan_at i (fst (fst st'))) tr) /\
  ((exists v, nth_error (fst (fst st)) i = Some v /\ forall z, v <> Fin z) ->
   List.Forall (fun st' => exists v, nth_error (fst (fst st')) i = Some v /\ forall z, v <> Fin z) tr).
Proof.
  intros rnd s G randn laplace rand f lmda mu delta tr st i o PT.
  assert (Q : forall P, absorbing rnd P -> has P i (fst (fst st)) -> List.Forall (fun st' => has P i (fst (fst st'))) tr).
  { intros P AB. induction PT as [|a b tr T PT IH]; intros H; constructor.
    - destruct a as ((x & d) & g), b as ((x' & d') & g'). destruct T as (T & _). cbn [o fl_sk_ops o_skstep] in T. unfold f_skstep in T.
      destruct (randn (length x) g) as (z & g1). apply (f_equal fst) in T. exact (K_keeps rnd s f lmda P AB _ _ _ i H _ _ T).
    - apply IH. destruct a as ((x & d) & g), b as ((x' & d') & g'). destruct T as (T & _). cbn [o fl_sk_ops o_skstep] in T. unfold f_skstep in T.
      destruct (randn (length x) g) as (z & g1). apply (f_equal fst) in T. exact (K_keeps rnd s f lmda P AB _ _ _ i H _ _ T). }
  split; [|apply (Q _ (nonfin_absorbs rnd))].
  intros H. eapply List.Forall_impl; [|apply (Q _ (nan_absorbs rnd)); exists NaN; auto]. intros st' (v & E & <-). exact E.
Qed.
Print Assumptions C65_stays.

(** within a step: an entry of a stage, or of the gradient from which the stage is
    formed, that is NaN is NaN in the result *)
Theorem C65_stage_stays : forall rnd s G (randn : nat -> G -> list R * G) f lmda delta X g X' g' i j,
  let Z := map Fin (fst (randn (length X) g)) in
  f_skstep rnd s randn f lmda delta X g = (Ok X', g') -> (1 <= j <= Z.to_nat s)%nat ->
  (forall K, f_K rnd s f lmda delta X j Z = Ok K -> nan_at i K -> nan_at i X') /\
  (forall y e mu nu k, j = 1%nat -> f_coef rnd s 1 = Ok (mu, nu, k) ->
     fzip (fadd rnd) X (fscal rnd (fmul rnd nu (fsqrt rnd (fmul rnd (Fin 2) delta))) Z) = Ok y ->
     f_gradlogpi rnd f lmda y = Ok e -> nan_at i e -> nan_at i X') /\
  (forall K e, (2 <= j)%nat -> f_K rnd s f lmda delta X (j - 1) Z = Ok K -> f_gradlogpi rnd f lmda K = Ok e -> nan_at i e -> nan_at i X').
Proof.
  intros rnd s G randn f lmda delta X g X' g' i j Z0 E Hj. unfold f_skstep in E. assert (AB := nan_absorbs rnd).
  assert (E' : f_K rnd s f lmda delta X (Z.to_nat s) Z0 = Ok X') by (unfold Z0; destruct (randn (length X) g); exact (f_equal fst E)).
  assert (FR : forall K, f_K rnd s f lmda delta X j Z0 = Ok K -> has (eq NaN) i K -> nan_at i X').
  { intros K EK HK. destruct (K_from rnd s f lmda (eq NaN) AB delta X Z0 i j K (proj1 Hj) EK HK (Z.to_nat s) X' (proj2 Hj) E') as (v & Ev & <-). exact Ev. }
  destruct (K_stages rnd s f lmda delta X Z0 _ _ E' j (proj2 Hj)) as (Kj & EKj).
  split; [|split].
  - intros K EK HK. apply (FR K EK). exists NaN. auto.
  - intros y e mu nu k -> EC Ey Ee He. destruct (K_one rnd s f lmda (eq NaN) AB _ _ _ _ EKj) as (mu' & nu' & k' & y' & e' & EC' & Ey' & Ee' & Q).
    rewrite EC in EC'. injection EC' as <- <- <-. rewrite Ey in Ey'. injection Ey' as <-. rewrite Ee in Ee'. injection Ee' as <-.
    apply (FR _ EKj). apply Q. right. exists NaN. auto.
  - intros K e H2 EK Ee He. destruct j as [|[|j]]; [lia|lia|]. replace (S (S j) - 1)%nat with (S j) in EK by lia.
    destruct (K_more rnd s f lmda (eq NaN) AB _ _ _ _ _ EKj) as (K1 & K2 & e' & E1 & _ & Ee' & Q).
    rewrite EK in E1. injection E1 as <-. rewrite Ee in Ee'. injection Ee' as <-.
    apply (FR _ EKj). apply Q. right. right. exists NaN. auto.
Qed.
Print Assumptions C65_stage_stays.

(** the rows of a completed run *)
Lemma sk_rows : forall rnd s G (randn laplace : nat -> G -> list R * G) rand f lmda mu prm N fuel x0 w w' c,
  let o := fl_sk_ops rnd s randn laplace rand f lmda mu in
  (forall x d, fp_forward f x = Ok d -> length x = fp_nparams f) ->
  sized (w_inst w) N -> p_nsamples prm = Z.of_nat N ->
  skrock_run o prm fuel (Some x0) w = (w', Ret tt) -> i_chain (w_inst w') = Some c ->
  exists tr d, length x0 = fp_nparams f /\ fp_forward f x0 = Ok d /\
    path (skrock_trans o (i_delta (w_inst w))) (x0, d, w_rng w) tr /\ length c = N /\
    forall j row, nth_error c j = Some row ->
      exists d' g', nth_error tr (Z.to_nat (save_iter (p_nburn prm) (p_ngap prm) j)) = Some (row, d', g').
Proof.
  intros rnd s G randn laplace rand f lmda mu prm N fuel x0 w w' c o HL SZ EN RN EC.
  destruct (C01_skrock_schedule _ _ _ _ _ _ o prm fuel _ w w' N SZ EN RN) as (s0 & tr & l & ST & PT & TL & _ & LL & _ & RR & V).
  destruct s0 as ((x & d) & g). destruct ST as (I & F). cbn [o fl_sk_ops fl_ops o_init o_forward] in I, F. unfold f_start in I.
  destruct (Nat.eqb_spec (length x0) (fp_nparams f)) as [Lx|]; [|discriminate]. injection I as <- <-. exists tr, d.
  split; [auto|]. split; [exact F|]. split; [exact PT|].
  destruct RR as (_ & _ & _ & _ & RR). rewrite EC in RR. destruct SZ as (_ & _ & _ & _ & S5).
  destruct (i_chain (w_inst w)) as [a0|]; [|destruct RR]. cbn in S5. destruct RR as (rws & F2 & LE & ->).
  assert (LR' : length (map e_X l) = length rws) by (clear - F2; induction F2; cbn; congruence). rewrite map_length in LR', LE.
  assert (LC : length (rws ++ skipn (length (map e_X l)) a0) = N) by (rewrite app_length, skipn_length, map_length; lia).
  split; [exact LC|]. intros j row Ej.
  assert (Hj : (j < N)%nat) by (rewrite <- LC; apply nth_error_Some; congruence). rewrite nth_error_app1 in Ej by lia.
  assert (EX : exists e, nth_error l j = Some e /\ f_row (fp_nparams f) (e_X e) = Ok row).
  { clear - F2 Ej. revert rws j F2 Ej. induction l as [|e l IH]; intros rws j F2 Ej; inversion F2; subst; [destruct j; discriminate|].
    destruct j as [|j]; cbn in *; [injection Ej as ->; eauto|]. eapply IH; eauto. }
  destruct EX as (e & Ee & Er). destruct (V j e Ee) as (((X' & d') & g') & Et & Eq).
  assert (e_X e = X') by (destruct e as ((? & ?) & ?); destruct Eq; auto).
  assert (LX' : length X' = fp_nparams f).
  { assert (LEN : forall tr s, path (skrock_trans o (i_delta (w_inst w))) s tr -> forall k y e h, nth_error tr k = Some (y, e, h) -> length y = fp_nparams f).
    { clear - HL. induction tr as [|s' tr IH]; intros s0 PT k y e h E; [destruct k; discriminate|]. inversion PT as [|? ? ? T1 Q1]; subst.
      destruct k as [|k]; [|eapply IH; eauto]. cbn in E. injection E as ->. destruct s0 as ((x & d) & g). destruct T1 as (_ & F1). exact (HL _ _ F1). }
    eapply LEN; eauto. }
  rewrite H in Er. unfold f_row in Er. rewrite LX', Nat.eqb_refl in Er. injection Er as <-. eauto.
Qed.

(** in the chain a run records *)
Theorem C65_records : forall rnd s G (randn laplace : nat -> G -> list R * G) rand f lmda mu prm N fuel x0 w w' c i,
  (forall x d, fp_forward f x = Ok d -> length x = fp_nparams f) ->
  sized (w_inst w) N -> p_nsamples prm = Z.of_nat N ->
  skrock_run (fl_sk_ops rnd s randn laplace rand f lmda mu) prm fuel (Some x0) w = (w', Ret tt) -> i_chain (w_inst w') = Some c ->
  length c = N /\
  (nan_at i x0 -> List.Forall (fun row => nan_at i row) c) /\
  ((exists v, nth_error x0 i = Some v /\ forall z, v <> Fin z) -> List.Forall (fun row => exists v, nth_error row i = Some v /\ forall z, v <> Fin z) c).
Proof.
  intros rnd s G randn laplace rand f lmda mu prm N fuel x0 w w' c i HL SZ EN RN EC.
  destruct (sk_rows _ _ _ _ _ _ _ _ _ _ _ _ _ _ _ _ HL SZ EN RN EC) as (tr & d & Lx & Ed & PT & LC & V). split; [exact LC|].
  destruct (C65_stays rnd s G randn laplace rand f lmda mu _ tr _ i PT) as (A & B). cbn [fst] in A, B.
  split; intros H; [specialize (A H); rename A into Q|specialize (B H); rename B into Q];
    apply List.Forall_forall; intros row Hr; apply In_nth_error in Hr; destruct Hr as (j & Ej); destruct (V j row Ej) as (d' & g' & Et);
    rewrite List.Forall_forall in Q; exact (Q _ (nth_error_In _ _ Et)).
Qed.
Print Assumptions C65_records.

(** ** path integrals with the L1 prior *)

Section Paths.
Variables (rnd : R -> float) (s : Z) (G : Type) (randn laplace : nat -> G -> list R * G) (rand : G -> R * G) (lmda mu : float).
Variables (n : nat) (rows : list (list (nat * float))) (data ws : fvec) (t : float).
Local Notation fp := (f_paths rnd n rows data ws (FScal t)).
Local Notation fo := (fl_sk_ops rnd s randn laplace rand fp lmda mu).

Lemma grad_parts : forall X g, f_gradlogpi rnd fp lmda X = Ok g ->
  exists d v, f_path_forward rnd n rows X = Ok d /\ f_gradg rnd n rows data ws d = Ok v /\
    forall i x b, nth_error X i = Some x -> nth_error v i = Some b ->
      nth_error g i = Some (fsub rnd (fneg (fdiv rnd (fsub rnd x (f_soft1 rnd t x)) lmda)) b).
Proof.
  intros X g E. unfold f_gradlogpi in E. cbn [fp_proxf fp_forward fp_gradg f_paths f_soft rbind] in E.
  destruct (fzip (fsub rnd) X (map (f_soft1 rnd t) X)) as [e|] eqn:Ee; [|discriminate]. cbn [rbind] in E.
  destruct (f_path_forward rnd n rows X) as [d|] eqn:Ed; [|discriminate]. cbn [rbind] in E.
  destruct (f_gradg rnd n rows data ws d) as [v|] eqn:Ev; [|discriminate]. cbn [rbind] in E.
  exists d, v. split; [reflexivity|]. split; [exact Ev|]. intros i x b Ex Eb.
  refine (fzip_nth _ _ _ _ _ _ _ E _ Eb). rewrite nth_error_map.
  rewrite (fzip_nth _ _ _ _ _ _ _ Ee Ex (map_nth_error (f_soft1 rnd t) i X Ex)). reflexivity.
Qed.
Lemma grad_len : forall X g, f_gradlogpi rnd fp lmda X = Ok g -> length X = n /\ length g = n.
Proof.
  intros X g E. unfold f_gradlogpi in E. cbn [fp_proxf fp_forward fp_gradg f_paths f_soft rbind] in E.
  destruct (fzip (fsub rnd) X (map (f_soft1 rnd t) X)) as [e|] eqn:Ee; [|discriminate]. cbn [rbind] in E.
  destruct (f_path_forward rnd n rows X) as [d|] eqn:Ed; [|discriminate]. cbn [rbind] in E.
  destruct (f_gradg rnd n rows data ws d) as [v|] eqn:Ev; [|discriminate]. cbn [rbind] in E.
  unfold f_path_forward in Ed. destruct (Nat.eqb_spec (length X) n) as [L|]; [|discriminate].
  destruct (fzip_length _ _ _ _ E) as (L1 & L2). apply (gradg_length rnd n rows data ws) in Ev. split; congruence.
Qed.
Lemma some_nth : forall (v : fvec) i, (i < length v)%nat -> exists b, nth_error v i = Some b.
Proof. intros v i H. destruct (nth_error v i) eqn:E; [eauto|]. apply nth_error_None in E. lia. Qed.

(** a NaN in the argument of the gradient is NaN there and at the pixels that
    share a path *)
Lemma grad_spread : forall X g i j, f_gradlogpi rnd fp lmda X = Ok g -> nan_at i X -> (j < n)%nat -> i = j \/ share rows ws i j -> nan_at j g.
Proof.
  intros X g i j E Ni Hj SH. destruct (grad_len X g E) as (LX & Lg). destruct (grad_parts X g E) as (d & v & Ed & Ev & Q).
  assert (Lv := gradg_length rnd n rows data ws d v Ev).
  destruct SH as [<-|(k & r & w & a & b & Rk & Wk & Wz & Ia & Ib)].
  - destruct (some_nth v i ltac:(lia)) as (b & Eb). unfold nan_at. rewrite (Q i NaN b Ni Eb). reflexivity.
  - destruct (some_nth X j ltac:(lia)) as (x & Ex).
    assert (Nd : nan_at k d).
    { unfold f_path_forward in Ed. destruct (Nat.eqb _ n); [|discriminate]. injection Ed as <-. unfold nan_at. rewrite nth_error_map, Rk. cbn [option_map]. f_equal.
      exact (spdot_nan rnd r X i a Ia Ni). }
    assert (Nv : nan_at j v).
    { unfold f_gradg in Ev. destruct (fzip (fsub rnd) d data) as [df|] eqn:E1; [|discriminate]. cbn [rbind] in Ev.
      destruct (fzip_same_len _ _ _ _ _ _ E1 Nd) as (y & _ & Ndf). rewrite fsub_nan_l in Ndf.
      destruct (f_weigh rnd ws df) as [wd|] eqn:E2; [|discriminate]. cbn [rbind] in Ev. unfold f_weigh in E2.
      destruct (fzip_same_len _ _ _ _ _ _ E2 Wk) as (y' & Ny & Nwd). rewrite Ndf in Ny. injection Ny as <-.
      rewrite Wz in Nwd. cbn [fzerob orb] in Nwd. rewrite fmul_nan_r, fadd_nan_r in Nwd.
      unfold f_path_adjoint in Ev. destruct (Nat.eqb _ _); [|discriminate]. injection Ev as <-.
      destruct (adjoint_row_has n rows j k r b Hj Rk Ib) as (rr & Err & Irr). unfold nan_at. rewrite nth_error_map, Err. cbn [option_map]. f_equal.
      exact (spdot_nan rnd rr wd k b Irr Nwd). }
    unfold nan_at. rewrite (Q j x NaN Ex Nv). unfold fsub. cbn. rewrite fadd_nan_r. reflexivity.
Qed.
(** an argument that is not finite gives NaN *)
Lemma grad_nonfin : forall X g i v, t <> PInf -> f_gradlogpi rnd fp lmda X = Ok g -> nth_error X i = Some v -> (forall z, v <> Fin z) -> nan_at i g.
Proof.
  intros X g i v Ht E Ev Nv. destruct (grad_len X g E) as (LX & Lg). destruct (grad_parts X g E) as (d & u & Ed & Eu & Q).
  assert (Lu := gradg_length rnd n rows data ws d u Eu). assert (Hi : (i < n)%nat) by (rewrite <- LX; apply nth_error_Some; congruence).
  destruct (some_nth u i ltac:(lia)) as (b & Eb). unfold nan_at. rewrite (Q i v b Ev Eb).
  assert (S : f_soft1 rnd t v = NaN).
  { destruct v as [z| | |]; [elim (Nv z eq_refl)| | |reflexivity];
      apply (proj1 (proj2 (C63_soft_specials rnd t _))); auto. }
  rewrite S. unfold fsub at 2. cbn [fneg]. rewrite fadd_nan_r. reflexivity.
Qed.
Lemma reach_snoc : forall k i j, reach n rows ws (S k) i j -> (i < n)%nat ->
  reach n rows ws k i j \/ exists l, (l < n)%nat /\ (j < n)%nat /\ reach n rows ws k i l /\ share rows ws l j.
Proof.
  induction k as [|k IH]; intros i j H Hi.
  - cbn in H. destruct H as [->|(l & Hl & SH & <-)]; [left; reflexivity|]. right. exists i. cbn. auto.
  - cbn [reach] in H. destruct H as [->|(l & Hl & SH & H)]; [left; cbn; auto|]. destruct (IH l j H Hl) as [A|(p & Hp & Hj & A & B)].
    + left. cbn. right. exists l. auto.
    + right. exists p. split; [auto|]. split; [auto|]. split; [|auto]. cbn. right. exists l. auto.
Qed.
Lemma has_nan : forall i x, has (eq NaN) i x <-> nan_at i x.
Proof. intros i x. split; [intros (v & E & <-); exact E|intros E; exists NaN; auto]. Qed.

(** in stage j, a NaN of X has crossed j paths *)
Lemma K_spread : forall delta X Z i, nan_at i X -> (i < n)%nat -> forall j K, f_K rnd s fp lmda delta X j Z = Ok K ->
  forall l, reach n rows ws j i l -> nan_at l K.
Proof.
  intros delta X Z0 i Ni Hi. assert (AB := nan_absorbs rnd).
  induction j as [|j IH]; intros K E l RE.
  - cbn in E. injection E as <-. cbn in RE. now subst l.
  - destruct j as [|j].
    + destruct (K_one rnd s fp lmda (eq NaN) AB _ _ _ _ E) as (mu1 & nu & k & y & g & _ & Ey & Eg & Q). apply has_nan, Q.
      assert (Ny : nan_at i y) by (destruct (fzip_same_len _ _ _ _ _ _ Ey Ni) as (b & _ & H); unfold nan_at; rewrite H, fadd_nan_l; reflexivity).
      cbn in RE. destruct RE as [->|(p & Hp & SH & <-)]; [left; now apply has_nan|]. right. apply has_nan. apply (grad_spread y g i p Eg Ny Hp). auto.
    + destruct (K_more rnd s fp lmda (eq NaN) AB _ _ _ _ _ E) as (K1 & K2 & g & E1 & E2 & Eg & Q). apply has_nan, Q.
      destruct (reach_snoc _ _ _ RE Hi) as [A|(p & Hp & Hl & A & SH)].
      * left. apply has_nan. exact (IH K1 E1 l A).
      * right. right. apply has_nan. apply (grad_spread K1 g p l Eg (IH K1 E1 p A) Hl). auto.
Qed.

(** a NaN crosses s paths in each step *)
Theorem C65_spread : forall delta tr X d g, path (skrock_trans fo delta) (X, d, g) tr ->
  forall m X' d' g' k i j, nth_error tr m = Some (X', d', g') -> (k <= S m * Z.to_nat s)%nat -> (i < n)%nat -> nan_at i X ->
    reach n rows ws k i j -> nan_at j X'.
Proof.
  intros delta.
  assert (ST : forall X d g X' d' g' k i j, skrock_trans fo delta (X, d, g) (X', d', g') -> (k <= Z.to_nat s)%nat -> (i < n)%nat -> nan_at i X -> reach n rows ws k i j -> nan_at j X').
  { intros X d g X' d' g' k i j (T & _) Hk Hi Ni RE. cbn [fl_sk_ops o_skstep] in T. unfold f_skstep in T. destruct (randn (length X) g) as (z & g1). apply (f_equal fst) in T. cbn [fst] in T.
    apply (K_spread delta X (map Fin z) i Ni Hi _ X' T). clear - RE Hk. revert i k RE Hk. induction (Z.to_nat s) as [|u IH]; intros i k RE Hk.
    - replace k with 0%nat in RE by lia. exact RE.
    - destruct k as [|k]; [left; exact RE|]. destruct RE as [->|(l & Hl & SH & RE)]; [left; reflexivity|]. right. exists l. split; [auto|]. split; [auto|]. apply (IH l k RE). lia. }
  assert (SPL : forall a b i j, (i < n)%nat -> reach n rows ws (a + b) i j -> exists l, (l < n)%nat /\ reach n rows ws a i l /\ reach n rows ws b l j).
  { induction a as [|a IH]; intros b i j Hi RE; [exists i; cbn; auto|]. cbn in RE. destruct RE as [->|(l & Hl & SH & RE)].
    - exists j. split; [auto|]. split; [left; reflexivity|]. destruct b; [reflexivity|left; reflexivity].
    - destruct (IH b l j Hl RE) as (p & Hp & A & B). exists p. split; [auto|]. split; [right; exists l; auto|auto]. }
  induction tr as [|b tr IH]; intros X d g PT m X' d' g' k i j Em Hk Hi Ni RE; [destruct m; discriminate|].
  inversion PT as [|? ? ? T1 Q1]; subst. destruct b as ((x1 & e1) & h1).
  destruct m as [|m]; [cbn in Em; injection Em as <- <- <-; apply (ST X d g x1 e1 h1 k i j T1); auto; lia|]. cbn in Em.
  destruct (Nat.le_gt_cases k (Z.to_nat s)) as [Hs|Hs].
  - assert (N1 : nan_at j x1) by (apply (ST X d g x1 e1 h1 k i j T1); auto).
    assert (Hj : (j < n)%nat). { clear - RE Hi. revert i Hi RE. induction k as [|k IH]; intros i Hi RE; [cbn in RE; subst; exact Hi|]. destruct RE as [->|(l & Hl & _ & RE)]; [exact Hi|exact (IH l Hl RE)]. }
    apply (IH x1 e1 h1 Q1 m X' d' g' 0%nat j j Em); [lia|exact Hj|exact N1|reflexivity].
  - replace k with (Z.to_nat s + (k - Z.to_nat s))%nat in RE by lia. destruct (SPL _ _ _ _ Hi RE) as (l & Hl & A & B).
    apply (IH x1 e1 h1 Q1 m X' d' g' (k - Z.to_nat s)%nat l j Em); [cbn in Hk |- *; lia|exact Hl| |exact B].
    apply (ST X d g x1 e1 h1 (Z.to_nat s) i l T1); auto.
Qed.

(** an entry that is not finite is NaN after one step, and so is every pixel
    connected to it by s - 1 paths *)
Theorem C65_infinite_entry : forall delta X d g X' d' g' i v, t <> PInf -> (0 < s)%Z ->
  nth_error X i = Some v -> (forall z, v <> Fin z) -> skrock_trans fo delta (X, d, g) (X', d', g') ->
  forall k j, (k < Z.to_nat s)%nat -> reach n rows ws k i j -> nan_at j X'.
Proof.
  intros delta X d g X' d' g' i v Ht Hs Ev Nv (T & F). cbn [fl_sk_ops fl_ops o_forward fp_forward f_paths] in F.
  cbn [fl_sk_ops o_skstep] in T. unfold f_skstep in T. destruct (randn (length X) g) as (z & g1). apply (f_equal fst) in T. cbn [fst] in T.
  assert (AB := nan_absorbs rnd). assert (AI := nonfin_absorbs rnd). set (Z0 := map Fin z) in *.
  assert (Q : forall j K, f_K rnd s fp lmda delta X (S j) Z0 = Ok K -> (i < n)%nat /\ forall l, reach n rows ws j i l -> nan_at l K).
  { induction j as [|j IH]; intros K E.
    - destruct (K_one rnd s fp lmda (eq NaN) AB _ _ _ _ E) as (mu1 & nu & k & y & e & _ & Ey & Ee & Q).
      destruct (fzip_same_len _ _ _ _ _ _ Ey Ev) as (b & _ & H).
      assert (Ne := grad_nonfin y e i _ Ht Ee H (ab_l _ _ AI v b Nv)).
      split; [destruct (grad_len _ _ Ee) as (_ & <-); apply nth_error_Some; unfold nan_at in Ne; congruence|].
      intros l RE. cbn in RE. subst l. apply has_nan, Q. right. now apply has_nan.
    - destruct (K_more rnd s fp lmda (eq NaN) AB _ _ _ _ _ E) as (K1 & K2 & e & E1 & E2 & Ee & Q).
      destruct (IH K1 E1) as (Hi & I1). split; [exact Hi|]. intros l RE. apply has_nan, Q.
      destruct (reach_snoc _ _ _ RE Hi) as [A|(p & Hp & Hl & A & SH)].
      + left. apply has_nan. exact (I1 l A).
      + right. right. apply has_nan. apply (grad_spread K1 e p l Ee (I1 p A) Hl). auto. }
  intros k j Hk RE. destruct (Z.to_nat s) as [|u] eqn:Eu; [lia|]. apply (Q u X' T).
  clear - RE Hk. revert i k RE Hk. induction u as [|u IH]; intros i k RE Hk.
  - replace k with 0%nat in RE by lia. exact RE.
  - destruct k as [|k]; [left; exact RE|]. destruct RE as [->|(l & Hl & SH & RE)]; [left; reflexivity|]. right. exists l. split; [auto|]. split; [auto|]. apply (IH l k RE). lia.
Qed.

(** pixels no path crosses: what is stored there does not reach the others *)
Hypothesis LR : forall k g, length (fst (randn k g)) = k.
Lemma grad_agree : forall (P : nat -> Prop) X Y a b, (forall i, crossed rows i -> P i) -> agree n P X Y -> f_gradlogpi rnd fp lmda X = Ok a -> f_gradlogpi rnd fp lmda Y = Ok b -> agree n P a b.
Proof.
  intros P X Y a b HP A EX EY. unfold f_gradlogpi in EX, EY. cbn [fp_proxf fp_forward fp_gradg f_paths f_soft rbind] in EX, EY.
  destruct (fzip (fsub rnd) X (map (f_soft1 rnd t) X)) as [e|] eqn:Ee; [|discriminate]. cbn [rbind] in EX.
  destruct (fzip (fsub rnd) Y (map (f_soft1 rnd t) Y)) as [e'|] eqn:Ee'; [|discriminate]. cbn [rbind] in EY.
  assert (FE : f_path_forward rnd n rows Y = f_path_forward rnd n rows X).
  { symmetry. apply C63_uncrossed_forward. destruct A as (L1 & L2 & A). split; auto. }
  rewrite FE in EY. destruct (f_path_forward rnd n rows X) as [d|]; [|discriminate]. cbn [rbind] in EX, EY.
  destruct (f_gradg rnd n rows data ws d) as [v|] eqn:Ev; [|discriminate]. cbn [rbind] in EX, EY.
  assert (Lv := gradg_length rnd n rows data ws d v Ev).
  assert (A1 : agree n P e e') by (eapply agree_zip; [exact A|apply agree_map; exact A|exact Ee|exact Ee']).
  eapply agree_zip; [apply agree_map; exact A1|apply agree_refl; exact Lv|exact EX|exact EY].
Qed.
Lemma K_agree : forall (P : nat -> Prop) delta X Y Z, (forall i, crossed rows i -> P i) -> agree n P X Y -> length Z = n ->
  forall j a b, f_K rnd s fp lmda delta X j Z = Ok a -> f_K rnd s fp lmda delta Y j Z = Ok b -> agree n P a b.
Proof.
  intros P delta X Y Z0 HP A LZ.
  assert (FS : forall c a b, agree n P a b -> agree n P (fscal rnd c a) (fscal rnd c b)) by (intros; now apply agree_map).
  assert (ZZ : agree n P Z0 Z0) by now apply agree_refl.
  assert (Q : forall j, (forall a b, f_K rnd s fp lmda delta X j Z0 = Ok a -> f_K rnd s fp lmda delta Y j Z0 = Ok b -> agree n P a b) /\
     (forall a b, f_K rnd s fp lmda delta X (S j) Z0 = Ok a -> f_K rnd s fp lmda delta Y (S j) Z0 = Ok b -> agree n P a b)); [|apply Q].
  induction j as [|j (I1 & I2)]; (split; [try exact I2|]).
  - intros a b E1 E2. injection E1 as <-. injection E2 as <-. exact A.
  - intros a b E1 E2. cbn [f_K] in E1, E2. destruct (f_coef rnd s 1) as [((c1 & nu) & k)|]; [|discriminate]. cbn [rbind] in E1, E2.
    destruct (fzip (fadd rnd) X _) as [y|] eqn:Ey in E1; [|discriminate]. destruct (fzip (fadd rnd) Y _) as [y'|] eqn:Ey' in E2; [|discriminate]. cbn [rbind] in E1, E2.
    assert (AY : agree n P y y') by (eapply agree_zip; [exact A|apply FS, ZZ|exact Ey|exact Ey']).
    destruct (f_gradlogpi rnd fp lmda y) as [e|] eqn:Ee; [|discriminate]. destruct (f_gradlogpi rnd fp lmda y') as [e'|] eqn:Ee'; [|discriminate]. cbn [rbind] in E1, E2.
    assert (AG := grad_agree P _ _ _ _ HP AY Ee Ee').
    destruct (fzip (fadd rnd) X _) as [u|] eqn:Eu in E1; [|discriminate]. destruct (fzip (fadd rnd) Y _) as [u'|] eqn:Eu' in E2; [|discriminate]. cbn [rbind] in E1, E2.
    assert (AU : agree n P u u') by (eapply agree_zip; [exact A|apply FS, AG|exact Eu|exact Eu']).
    eapply agree_zip; [exact AU|apply FS, ZZ|exact E1|exact E2].
  - intros a b E1 E2. rewrite K_eq in E1, E2. destruct (f_coef rnd s (S (S j))) as [((c1 & nu) & k)|]; [|discriminate]. cbn [rbind] in E1, E2.
    destruct (f_K rnd s fp lmda delta X (S j) Z0) as [K1|] eqn:EK1; [|discriminate]. destruct (f_K rnd s fp lmda delta Y (S j) Z0) as [K1'|] eqn:EK1'; [|discriminate]. cbn [rbind] in E1, E2.
    assert (A1 := I2 _ _ eq_refl eq_refl).
    destruct (f_gradlogpi rnd fp lmda K1) as [e|] eqn:Ee; [|discriminate]. destruct (f_gradlogpi rnd fp lmda K1') as [e'|] eqn:Ee'; [|discriminate]. cbn [rbind] in E1, E2.
    assert (AG := grad_agree P _ _ _ _ HP A1 Ee Ee').
    destruct (fzip (fadd rnd) _ _) as [u|] eqn:Eu in E1; [|discriminate]. destruct (fzip (fadd rnd) _ _) as [u'|] eqn:Eu' in E2; [|discriminate]. cbn [rbind] in E1, E2.
    assert (AU : agree n P u u') by (eapply agree_zip; [apply FS, AG|apply FS, A1|exact Eu|exact Eu']).
    destruct (f_K rnd s fp lmda delta X j Z0) as [K2|] eqn:EK2; [|discriminate]. destruct (f_K rnd s fp lmda delta Y j Z0) as [K2'|] eqn:EK2'; [|discriminate]. cbn [rbind] in E1, E2.
    eapply agree_zip; [apply agree_map, AU|apply (I1 _ _ eq_refl eq_refl)|exact E1|exact E2].
Qed.
Theorem C65_uncrossed : forall (P : nat -> Prop) delta, (forall i, crossed rows i -> P i) ->
  forall tr1 tr2 X Y d e g, agree n P X Y ->
  path (skrock_trans fo delta) (X, d, g) tr1 -> path (skrock_trans fo delta) (Y, e, g) tr2 ->
  forall k X' d1 g1 Y' d2 g2, nth_error tr1 k = Some (X', d1, g1) -> nth_error tr2 k = Some (Y', d2, g2) ->
    g1 = g2 /\ d1 = d2 /\ agree n P X' Y'.
Proof.
  intros P delta HP. induction tr1 as [|s1 tr1 IH]; intros tr2 X Y d e g A P1 P2 k X' d1 g1 Y' d2 g2 N1 N2; [destruct k; discriminate|].
  destruct tr2 as [|s2 tr2]; [destruct k; discriminate|].
  inversion P1 as [|? ? ? T1 Q1]; subst. inversion P2 as [|? ? ? T2 Q2]; subst.
  destruct s1 as ((x1 & e1) & h1). destruct s2 as ((x2 & e2) & h2). destruct T1 as (T1 & F1). destruct T2 as (T2 & F2).
  cbn [fl_sk_ops fl_ops o_skstep o_forward fp_forward f_paths] in T1, T2, F1, F2. unfold f_skstep in T1, T2.
  destruct A as (LX & LY & A). rewrite LX in T1. rewrite LY in T2. specialize (LR n g). destruct (randn n g) as (z & g3). cbn [fst] in LR.
  assert (G1 : g3 = h1) by exact (f_equal snd T1). assert (G2 : g3 = h2) by exact (f_equal snd T2). apply (f_equal fst) in T1. apply (f_equal fst) in T2. cbn [fst] in T1, T2. subst h1 h2.
  assert (A' := K_agree P delta X Y (map Fin z) HP (conj LX (conj LY A)) ltac:(rewrite map_length; exact LR) _ _ _ T1 T2).
  assert (e1 = e2).
  { rewrite (C63_uncrossed_forward rnd n rows x1 x2) in F1; [congruence|]. destruct A' as (L1 & L2 & A'). split; auto. }
  subst e2. destruct k as [|k]; [cbn in N1, N2; injection N1 as <- <- <-; injection N2 as <- <- <-; auto|].
  exact (IH tr2 x1 x2 e1 e1 g3 A' Q1 Q2 k X' d1 g1 Y' d2 g2 N1 N2).
Qed.
End Paths.
Print Assumptions C65_spread.
Print Assumptions C65_infinite_entry.
Print Assumptions C65_uncrossed.
