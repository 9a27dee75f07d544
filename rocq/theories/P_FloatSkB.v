(** C65: data errors of zero, and chains that leave every range. *)
From Coq Require Import List ZArith Lia Bool Reals Lra Psatz String.
From Coquelicot Require Import Coquelicot.
From Verif Require Import PyBase PyBaseFacts CVec Thresh ThreshSpec ThreshProof Forward Prior FwdProof Mcmc Sampler SamplerSpec SamplerFacts ParamSpec RepSpec Ieee IeeeProof P_Ieee P_Samplers P_Mcmc P_Stable StepProof
  SkDivProof P_SkDiv RoundProof FloatOps P_FloatOps P_FloatOpsB FloatSk FloatSkProof P_FloatSk.
Import ListNotations.
Notation length := List.length.
Open Scope R_scope.

(** ** a data error of zero *)

(** what the gradient of stage l + 1 is taken at: X plus noise, then the stages *)
Definition stage_input (rnd : R -> float) (s : Z) (f : fl_problem) (lmda delta : float) (X Z : fvec) (l : nat) (Y : fvec) : Prop :=
  match l with
  | O => exists mu nu k, f_coef rnd s 1 = Ok (mu, nu, k) /\ fzip (fadd rnd) X (fscal rnd (fmul rnd nu (fsqrt rnd (fmul rnd (Fin 2) delta))) Z) = Ok Y
  | _ => f_K rnd s f lmda delta X l Z = Ok Y
  end.

(** any stage whose prediction of that datum is not equal to it: every pixel of the
    path is infinite or NaN, and NaN if there is another stage *)
Theorem C65_zero_error : forall rnd F G (randn : nat -> G -> list R * G) s lmda n rows data sig t delta
    X g X' g' l Y d k r dk y j b,
  let f := f_paths rnd n rows data (f_weights rnd sig) (FScal t) in
  rounding rnd F -> nth_error sig k = Some (Fin 0) ->
  f_skstep rnd s randn f lmda delta X g = (Ok X', g') -> (l < Z.to_nat s)%nat ->
  stage_input rnd s f lmda delta X (map Fin (fst (randn (length X) g))) l Y -> fp_forward f Y = Ok d ->
  nth_error d k = Some dk -> nth_error data k = Some y -> fsub rnd dk y <> Fin 0 ->
  nth_error rows k = Some r -> In (j, b) r -> (j < n)%nat ->
  (exists v, nth_error X' j = Some v /\ forall z, v <> Fin z) /\ (t <> PInf -> (S l < Z.to_nat s)%nat -> nan_at j X').
Proof.
  intros rnd F G randn s lmda n rows data sig t delta X g X' g' l Y d k r dk y j b f H Hk E Hl SI EF Ed Ey NZ Er Ib Hj.
  set (Z0 := map Fin (fst (randn (length X) g))) in *.
  assert (E' : f_K rnd s f lmda delta X (Z.to_nat s) Z0 = Ok X').
  { unfold f_skstep in E. unfold Z0. destruct (randn (length X) g); exact (f_equal fst E). }
  assert (AI := nonfin_absorbs rnd). assert (AB := nan_absorbs rnd).
  destruct (C63_weights rnd F sig H) as (_ & _ & W & _). specialize (W k Hk).
  assert (GZ : forall e, f_gradlogpi rnd f lmda Y = Ok e -> has (fun v => forall z, v <> Fin z) j e).
  { intros e Ee. destruct (grad_len rnd lmda n rows data (f_weights rnd sig) t Y e Ee) as (LY & Le).
    destruct (grad_parts rnd lmda n rows data (f_weights rnd sig) t Y e Ee) as (d' & v & Ed' & Ev & Q).
    cbn [f f_paths fp_forward] in EF. rewrite EF in Ed'. injection Ed' as <-. set (ws := f_weights rnd sig) in *. clearbody ws.
    assert (VG : exists u, nth_error v j = Some u /\ nonfin u).
    { unfold f_gradg in Ev. destruct (fzip (fsub rnd) d data) as [df|] eqn:E1; [|discriminate]. cbn [rbind] in Ev.
      assert (Edf := fzip_nth _ _ _ _ _ _ _ E1 Ed Ey). destruct (f_weigh rnd ws df) as [wd|] eqn:E2; [|discriminate]. cbn [rbind] in Ev.
      unfold f_weigh in E2. assert (Ewd := fzip_nth _ _ _ _ _ _ _ E2 W Edf). cbn [fzerob orb] in Ewd.
      assert (Z : fzerob (fsub rnd dk y) = false).
      { destruct (fsub rnd dk y) as [q| | |]; cbn; try reflexivity. destruct (Req_EM_T q 0) as [->|]; [elim (NZ eq_refl)|reflexivity]. }
      rewrite Z in Ewd. unfold f_path_adjoint in Ev. destruct (Nat.eqb _ _); [|discriminate]. injection Ev as <-.
      destruct (adjoint_row_has n rows j k r b Hj Er Ib) as (rr & Err & Irr).
      exists (fspdot rnd rr wd). rewrite nth_error_map, Err. split; [reflexivity|].
      eapply nonfin_spdot; [exact Irr|exact Ewd|]. apply nonfin_add_r, nonfin_mul_l. intros z; discriminate. }
    destruct VG as (u & Eu & Nu). destruct (some_nth Y j ltac:(lia)) as (x & Ex).
    eexists. split; [exact (Q j x u Ex Eu)|]. unfold fsub. apply nonfin_add_r, nonfin_neg. exact Nu. }
  destruct (K_stages rnd s f lmda delta X Z0 _ _ E' (S l) Hl) as (K & EK).
  assert (HK : has (fun v => forall z, v <> Fin z) j K).
  { destruct l as [|l].
    - destruct SI as (mu & nu & kk & EC & EY). destruct (K_one rnd s f lmda _ AI _ _ _ _ EK) as (mu' & nu' & k' & y' & e & EC' & Ey' & Ee & Q).
      rewrite EC in EC'. injection EC' as <- <- <-. rewrite EY in Ey'. injection Ey' as <-. apply Q. right. exact (GZ e Ee).
    - destruct (K_more rnd s f lmda _ AI _ _ _ _ _ EK) as (K1 & K2 & e & E1 & _ & Ee & Q). cbn [stage_input] in SI.
      rewrite SI in E1. injection E1 as <-. apply Q. right. right. exact (GZ e Ee). }
  split; [exact (K_from rnd s f lmda _ AI delta X Z0 j (S l) K ltac:(lia) EK HK (Z.to_nat s) X' Hl E')|].
  intros Ht Hl2. destruct (K_stages rnd s f lmda delta X Z0 _ _ E' (S (S l)) Hl2) as (K' & EK').
  destruct (K_more rnd s f lmda _ AB _ _ _ _ _ EK') as (K1 & K2 & e & E1 & _ & Ee & Q). rewrite EK in E1. injection E1 as <-.
  destruct HK as (v & Ev & Nv). assert (Ne := grad_nonfin rnd lmda n rows data (f_weights rnd sig) t K e j v Ht Ee Ev Nv).
  assert (HK' : has (eq NaN) j K') by (apply Q; right; right; exists NaN; auto).
  destruct (K_from rnd s f lmda _ AB delta X Z0 j (S (S l)) K' ltac:(lia) EK' HK' (Z.to_nat s) X' Hl2 E') as (v' & Ev' & <-). exact Ev'.
Qed.
Print Assumptions C65_zero_error.

(** ** two chains leave every range *)

(** on samples with entries of up to A, the float step returns numbers, at a
    distance of at most e from the step of the real-number model *)
Definition step_near (rnd : R -> float) {G} (R0 : rng G) (ff : fl_problem) (f : forward_op) (pr : prior_obj) (q : numparams) (n : nat) (d A e : R) : Prop :=
  forall x g X' g', length x = n -> within A x ->
    f_skstep rnd (n_s q) (g_randn R0) ff (Fin (n_lmda q)) (Fin d) (map Fin x) g = (Ok X', g') ->
    exists x' y, X' = map Fin x' /\ length x' = n /\ length y = n /\ skrock_step R0 f pr q d (map RtoC x) g = (Ok y, g') /\ nm (vsub (map RtoC x') y) <= e.

Lemma nm_far : forall n a b a' b', length a = n -> length b = n -> length a' = n -> length b' = n ->
  nm (vsub a' b') - nm (vsub a a') - nm (vsub b b') <= nm (vsub a b).
Proof.
  intros n a b a' b' L1 L2 L3 L4.
  assert (K : forall u v : vec, length u = n -> length v = n -> length (vsub u v) = n) by (intros; rewrite vsub_length; congruence).
  assert (E : vsub a b = vsub (vadd (vsub a' b') (vsub a a')) (vsub b b')).
  { clear K. revert a b a' b' L1 L2 L3 L4. unfold vsub, vadd. induction n as [|k IH]; intros [|x a] [|y b] [|x' a'] [|y' b'] L1 L2 L3 L4; cbn in *; try lia; [reflexivity|].
    f_equal; [ring|apply IH; lia]. }
  rewrite E. assert (L5 : length (vadd (vsub a' b') (vsub a a')) = n) by (rewrite vadd_length; rewrite !K; auto).
  assert (Q1 := proj1 (nm_vsub (vadd (vsub a' b') (vsub a a')) (vsub b b') ltac:(rewrite L5, K; auto))).
  assert (Q2 := nm_vadd_lower (vsub a' b') (vsub a a') ltac:(rewrite !K; auto)). lra.
Qed.
Lemma nm_within : forall A n x y, 0 <= A -> length x = n -> length y = n -> within A x -> within A y -> nm (vsub (map RtoC x) (map RtoC y)) <= 2 * A * sqrt (INR n).
Proof.
  intros A n x y HA Lx Ly Hx Hy. assert (B : nrm2 (vsub (map RtoC x) (map RtoC y)) <= (2 * A) * (2 * A) * INR n).
  { revert x y Lx Ly Hx Hy. induction n as [|k IH]; intros [|a x] [|b y] Lx Ly Hx Hy; try discriminate.
    - unfold vsub. cbn. lra.
    - inversion Hx; inversion Hy; subst. cbn [map]. unfold vsub. cbn [map2]. rewrite MomentProof.nrm2_cons. rewrite S_INR.
      assert (I := IH x y ltac:(auto) ltac:(auto) ltac:(auto) ltac:(auto)). unfold vsub in I.
      assert (Ha := proj1 (Rabs_le_between _ _) H1). assert (Hb := proj1 (Rabs_le_between _ _) H5).
      assert (Cm : fst (RtoC a - RtoC b)%C ^ 2 + snd (RtoC a - RtoC b)%C ^ 2 <= (2 * A) * (2 * A)) by (cbn; nra). lra. }
  unfold nm. apply Rle_trans with (sqrt (2 * A * (2 * A) * INR n)); [now apply sqrt_le_1_alt|].
  rewrite sqrt_mult by (try apply pos_INR; nra). rewrite sqrt_square by lra. lra.
Qed.

Section Leaves.
Variables (rnd : R -> float) (G : Type) (R0 : rng G) (ff : fl_problem) (f : forward_op) (pr : prior_obj) (q : numparams).
Variables (n m s : nat) (lo hi d A e : R) (lmu : float).
Hypothesis GR : good_rng R0.
Hypothesis CP : convex_problem f pr n m lo hi.
Hypothesis HL : 0 < n_lmda q.
Hypothesis SS : small_step q hi d.
Hypothesis ES : n_s q = Z.of_nat s.
Hypothesis HS : (2 <= s)%nat.
Hypothesis HA : 0 <= A.
Hypothesis NEAR : step_near rnd R0 ff f pr q n d A e.
Local Notation fo := (fl_sk_ops rnd (n_s q) (g_randn R0) (g_laplace R0) (g_rand R0) ff (Fin (n_lmda q)) lmu).

(** real numbers with entries of up to A *)
Definition inside (st : fvec * fvec * G) : Prop := exists x, fst (fst st) = map Fin x /\ length x = n /\ within A x.

(** as long as both stay inside, the distance grows by the factor s per step, up
    to the errors *)
Theorem C65_apart : forall tr1 tr2 x dX y dY g, length x = n -> length y = n -> within A x -> within A y ->
  path (skrock_trans fo (Fin d)) (map Fin x, dX, g) tr1 -> path (skrock_trans fo (Fin d)) (map Fin y, dY, g) tr2 ->
  List.Forall inside tr1 -> List.Forall inside tr2 ->
  forall k X' d1 g1 Y' d2 g2, nth_error tr1 k = Some (X', d1, g1) -> nth_error tr2 k = Some (Y', d2, g2) ->
  exists x' y', X' = map Fin x' /\ Y' = map Fin y' /\ g1 = g2 /\ length x' = n /\ length y' = n /\
    INR s ^ S k * (nm (vsub (map RtoC x) (map RtoC y)) - 2 * e / (INR s - 1)) + 2 * e / (INR s - 1) <= nm (vsub (map RtoC x') (map RtoC y')).
Proof.
  assert (S2 : 2 <= INR s) by (change 2 with (INR 2); apply le_INR; auto).
  assert (ONE : forall x dX y dY g s1 s2, length x = n -> length y = n -> within A x -> within A y ->
    skrock_trans fo (Fin d) (map Fin x, dX, g) s1 -> skrock_trans fo (Fin d) (map Fin y, dY, g) s2 ->
    exists x' y', fst (fst s1) = map Fin x' /\ fst (fst s2) = map Fin y' /\ snd s1 = snd s2 /\ length x' = n /\ length y' = n /\
      INR s * nm (vsub (map RtoC x) (map RtoC y)) - 2 * e <= nm (vsub (map RtoC x') (map RtoC y'))).
  { intros x dX y dY g ((X1 & e1) & g1) ((Y1 & e2) & g2) Lx Ly Wx Wy (T1 & _) (T2 & _). cbn [fl_sk_ops o_skstep] in T1, T2.
    destruct (NEAR x g X1 g1 Lx Wx T1) as (x' & ex & -> & Lx' & Lex & E1 & N1). destruct (NEAR y g Y1 g2 Ly Wy T2) as (y' & ey & -> & Ly' & Ley & E2 & N2).
    destruct (C61_step G R0 f pr q n m lo hi s d (map RtoC x) (map RtoC y) g ex ey g1 g2 GR CP HL SS ES HS ltac:(now rewrite map_length) ltac:(now rewrite map_length) E1 E2) as (EG & _ & _ & Q).
    exists x', y'. cbn [fst snd]. split; [reflexivity|]. split; [reflexivity|]. split; [exact EG|]. split; [auto|]. split; [auto|].
    assert (F := nm_far n (map RtoC x') (map RtoC y') ex ey ltac:(now rewrite map_length) ltac:(now rewrite map_length) Lex Ley).
    assert (Q' : INR s * nm (vsub (map RtoC x) (map RtoC y)) <= nm (vsub ex ey)).
    { rewrite <- !nm_sq, <- Rpow_mult_distr in Q. apply Rsqr_incr_0; [rewrite !Rsqr_pow2; exact Q| |apply nm_nonneg]. apply Rmult_le_pos; [lra|apply nm_nonneg]. }
    lra. }
  induction tr1 as [|s1 tr1 IH]; intros tr2 x dX y dY g Lx Ly Wx Wy P1 P2 F1 F2 k X' d1 g1 Y' d2 g2 N1 N2; [destruct k; discriminate|].
  destruct tr2 as [|s2 tr2]; [destruct k; discriminate|].
  inversion P1 as [|? ? ? T1 Q1]; subst. inversion P2 as [|? ? ? T2 Q2]; subst. inversion F1 as [|? ? I1 F1']; subst. inversion F2 as [|? ? I2 F2']; subst.
  destruct (ONE x dX y dY g s1 s2 Lx Ly Wx Wy T1 T2) as (x1 & y1 & EX & EY & EG & Lx1 & Ly1 & B).
  set (c := 2 * e / (INR s - 1)) in *. assert (EC : 2 * e = c * (INR s - 1)) by (unfold c; field; lra).
  set (D := nm (vsub (map RtoC x) (map RtoC y))) in *. set (D1 := nm (vsub (map RtoC x1) (map RtoC y1))) in *.
  assert (B' : INR s * (D - c) <= D1 - c) by lra.
  destruct s1 as ((X1 & e1) & h1). destruct s2 as ((Y1 & e2) & h2). cbn [fst snd] in EX, EY, EG. subst X1 Y1 h2.
  destruct k as [|k].
  - cbn in N1, N2. injection N1 as <- <- <-. injection N2 as <- <- <-. exists x1, y1. rewrite pow_1. split; [auto|]. split; [auto|]. split; [auto|]. split; [auto|]. split; [auto|]. fold D1. lra.
  - cbn in N1, N2.
    assert (INJ : forall u v : list R, map Fin u = map Fin v -> u = v).
    { clear. induction u as [|a u IH]; intros [|b v] H; cbn in H; try discriminate; [reflexivity|]. injection H as -> H. f_equal. auto. }
    destruct I1 as (u & Eu & Lu & Wu). cbn [fst] in Eu. apply INJ in Eu. subst u. destruct I2 as (v & Ev & Lv & Wv). cbn [fst] in Ev. apply INJ in Ev. subst v.
    destruct (IH tr2 x1 e1 y1 e2 h1 Lx1 Ly1 Wu Wv Q1 Q2 F1' F2' k X' d1 g1 Y' d2 g2 N1 N2) as (x' & y' & E1 & E2 & E3 & L1 & L2 & R1).
    exists x', y'. split; [auto|]. split; [auto|]. split; [auto|]. split; [auto|]. split; [auto|]. fold D1 in R1.
    assert (P : 0 <= INR s ^ S k) by (apply pow_le; lra). assert (M := Rmult_le_compat_l _ _ _ P B').
    replace (INR s ^ S (S k) * (D - c)) with (INR s ^ S k * (INR s * (D - c))) by (cbn; ring). lra.
Qed.

(** so after finitely many steps, how many is explicit, one of two chains with the
    same noise has left: it holds a number larger than A, an infinity or NaN *)
Theorem C65_leaves : forall x y k, length x = n -> length y = n -> within A x -> within A y ->
  2 * A * sqrt (INR n) < INR s ^ S k * (nm (vsub (map RtoC x) (map RtoC y)) - 2 * e / (INR s - 1)) + 2 * e / (INR s - 1) ->
  forall tr1 tr2 dX dY g, (k < length tr1)%nat -> (k < length tr2)%nat ->
  path (skrock_trans fo (Fin d)) (map Fin x, dX, g) tr1 -> path (skrock_trans fo (Fin d)) (map Fin y, dY, g) tr2 ->
  ~ (List.Forall inside tr1 /\ List.Forall inside tr2).
Proof.
  intros x y k Lx Ly Wx Wy HK tr1 tr2 dX dY g K1 K2 P1 P2 (F1 & F2).
  destruct (nth_error tr1 k) as [((X' & d1) & g1)|] eqn:N1; [|apply nth_error_None in N1; lia].
  destruct (nth_error tr2 k) as [((Y' & d2) & g2)|] eqn:N2; [|apply nth_error_None in N2; lia].
  destruct (C65_apart tr1 tr2 x dX y dY g Lx Ly Wx Wy P1 P2 F1 F2 k X' d1 g1 Y' d2 g2 N1 N2) as (x' & y' & -> & -> & _ & Lx' & Ly' & B).
  assert (INJ : forall u v : list R, map Fin u = map Fin v -> u = v).
  { clear. induction u as [|a u IH]; intros [|b v] H; cbn in H; try discriminate; [reflexivity|]. injection H as -> H. f_equal. auto. }
  rewrite List.Forall_forall in F1, F2. destruct (F1 _ (nth_error_In _ _ N1)) as (u & Eu & Lu & Wu). destruct (F2 _ (nth_error_In _ _ N2)) as (v & Ev & Lv & Wv).
  cbn [fst] in Eu, Ev. apply INJ in Eu. apply INJ in Ev. subst u v.
  assert (Q := nm_within A n x' y' HA Lx' Ly' Wu Wv). lra.
Qed.

(** such a number of steps exists for any two starts that are not too close *)
Theorem C65_leaves_eventually : forall x y, 2 * e < (INR s - 1) * nm (vsub (map RtoC x) (map RtoC y)) -> exists k,
  2 * A * sqrt (INR n) < INR s ^ S k * (nm (vsub (map RtoC x) (map RtoC y)) - 2 * e / (INR s - 1)) + 2 * e / (INR s - 1).
Proof.
  intros x y H. assert (S2 : 2 <= INR s) by (change 2 with (INR 2); apply le_INR; auto). set (D := nm _) in *. set (c := 2 * e / (INR s - 1)).
  assert (EC : 2 * e = c * (INR s - 1)) by (unfold c; field; lra). assert (P : 0 < D - c) by nra.
  destruct (Pow_x_infinity (INR s) ltac:(rewrite Rabs_pos_eq; lra) ((Rabs (2 * A * sqrt (INR n)) + Rabs c + 1) / (D - c))) as (k & Hk).
  exists k. specialize (Hk (S k) ltac:(lia)). rewrite Rabs_pos_eq in Hk by (apply pow_le; lra). apply Rge_le in Hk.
  apply (Rmult_le_compat_r (D - c)) in Hk; [|lra]. unfold Rdiv in Hk. rewrite Rmult_assoc, Rinv_l, Rmult_1_r in Hk by lra.
  assert (Q1 := Rle_abs (2 * A * sqrt (INR n))). assert (Q2 := Rle_abs (- c)). rewrite Rabs_Ropp in Q2. lra.
Qed.
End Leaves.
Print Assumptions C65_apart.
Print Assumptions C65_leaves.
Print Assumptions C65_leaves_eventually.

(** with exact arithmetic there are no errors, whatever A *)
Theorem C65_near_exact : forall G (R0 : rng G) n m s lo hi ff f pr q d A, good_rng R0 -> same_problem n m ff f pr -> convex_problem f pr n m lo hi ->
  n_complex q = false -> 0 < n_lmda q -> 0 < d -> small_step q hi d -> n_s q = Z.of_nat s -> (2 <= s)%nat ->
  step_near Fin R0 ff f pr q n d A 0.
Proof.
  intros G R0 n m s lo hi ff f pr q d A GR SP CP NC HL Hd SS ES HS x g X' g' Lx _ E.
  destruct (sk_setup f pr q n m lo hi s d CP HL SS ES HS) as (w1 & r & _ & _ & _ & _ & _ & _ & _ & KR).
  rewrite C16_step, NC, map_length. unfold f_skstep in E. rewrite map_length in E. rewrite Lx in *. unfold noise.
  destruct (GR n g) as (LR & _). destruct (g_randn R0 n g) as (z & g1). cbn [fst] in LR.
  assert (EG : g1 = g') by exact (f_equal snd E). apply (f_equal fst) in E. cbn [fst] in E. subst g1.
  assert (K := K_exact q n m ff f pr SP HL d (map Fin x) (map RtoC x) (map Fin z) (map RtoC z) Hd ltac:(exists x; auto) ltac:(exists z; auto) (Z.to_nat (n_s q))).
  rewrite E in K. rewrite ES, Nat2Z.id in K at 1. rewrite KR in K by (rewrite ?map_length; auto). destruct K as (x' & Lx' & -> & EY).
  exists x', (map RtoC x'). split; [reflexivity|]. split; [exact Lx'|]. split; [now rewrite map_length|]. split.
  - cbn [fst snd]. rewrite ES, Nat2Z.id, KR by (rewrite ?map_length; auto). now rewrite EY.
  - apply Req_le. clear. unfold nm. replace (nrm2 (vsub (map RtoC x') (map RtoC x'))) with 0; [apply sqrt_0|].
    induction x' as [|a x IH]; [unfold vsub; cbn; reflexivity|]. cbn [map]. unfold vsub in *. cbn [map2]. rewrite MomentProof.nrm2_cons, <- IH. cbn. ring.
Qed.
Print Assumptions C65_near_exact.

(** ** Concrete cases *)

(** one parameter measured directly, no prior *)
Definition id_fl : fl_problem :=
  mkFl 1 [Fin 1] [[(0%nat, Fin 1)]] (fun x => Ok x) (fun d => fzip (fsub Fin) d [Fin 1]) (fun x => Ok x) (fun _ => Ok (Fin 0)).
Definition id_pr : prior_obj := mkPrior (fun _ => Ok 0) (fun X => soft X (TScal 0)).
Lemma id_same : same_problem 1 1 id_fl (weighted_fwd 1) id_pr.
Proof.
  assert (ID : forall k x y, same_vec k x y -> rel_res (same_vec k) (Ok x) (Ok y)) by (intros k x y H; exact H).
  constructor.
  - reflexivity.
  - reflexivity.
  - exists [1]. auto.
  - exists [[(0%nat, 1)]]. split; [reflexivity|]. split; [repeat constructor|]. split; [reflexivity|]. split; [reflexivity|]. split; [reflexivity|].
    intros i j Hi Hj. assert (i = 0%nat) by lia. assert (j = 0%nat) by lia. subst. cbn. f_equal. ring.
  - intros x y H. cbn. now apply ID.
  - intros x y (v & L & -> & ->). destruct v as [|a [|? ?]]; try discriminate. cbn [map]. rewrite weighted_gradg. cbn. exists [a - 1]. split; [reflexivity|]. split; [reflexivity|].
    cbn. f_equal. apply C_ext; cbn; ring.
  - intros x y (v & L & -> & ->). cbn [fp_proxf id_fl pr_proxf id_pr]. rewrite soft_scal. exists v. split; [exact L|]. split; [reflexivity|]. rewrite map_map. apply map_ext.
    intros a. unfold soft1. destruct (Rle_dec (Cmod (RtoC a)) 0) as [H|H].
    + rewrite Cmod_R in H. assert (Rabs a = 0) by (assert (Q := Rabs_pos a); lra). destruct (Req_dec a 0) as [->|N]; [reflexivity|apply Rabs_no_R0 in N; contradiction].
    + rewrite Cmod_R in *. destruct (Req_EM_T (Rabs a) 0); [lra|]. rewrite Rminus_0_r. unfold Rdiv. rewrite Rinv_r by auto. apply C_ext; cbn; ring.
  - intros x y _. reflexivity.
Qed.

(** exact arithmetic, two stages, step size 1/44, any noise: of two chains that
    start at 0 and 1 one is out of [-1000, 1000] within eleven steps *)
Example C65_leaves_case : forall G (R0 : rng G) tr1 tr2 g, good_rng R0 ->
  let q := mkNum 1 1 2 false in
  let fo := fl_sk_ops Fin 2 (g_randn R0) (g_laplace R0) (g_rand R0) id_fl (Fin 1) (Fin 1) in
  length tr1 = 11%nat -> length tr2 = 11%nat ->
  path (skrock_trans fo (Fin (1 / 44))) ([Fin 0], [Fin 0], g) tr1 -> path (skrock_trans fo (Fin (1 / 44))) ([Fin 1], [Fin 1], g) tr2 ->
  exists st, (In st tr1 \/ In st tr2) /\ ~ exists x, fst (fst st) = [Fin x] /\ Rabs x <= 1000.
Proof.
  intros G R0 tr1 tr2 g GR q fo L1 L2 P1 P2.
  assert (CP : convex_problem (weighted_fwd 1) id_pr 1 1 1 1) by (apply weighted_problem; lra).
  assert (SS : small_step q 1 (1 / 44)) by (split; cbn; lra).
  assert (NE := C65_near_exact G R0 1 1 2 1 1 id_fl (weighted_fwd 1) id_pr q (1 / 44) 1000 GR id_same CP eq_refl ltac:(cbn; lra) ltac:(lra) SS eq_refl ltac:(lia)).
  assert (D : nm (vsub (map RtoC [0]) (map RtoC [1])) = 1).
  { unfold nm. match goal with |- sqrt ?v = _ => replace v with 1; [apply sqrt_1|] end. cbn [map]. unfold vsub. cbn [map2]. rewrite MomentProof.nrm2_cons. unfold nrm2. cbn. ring. }
  assert (NL := C65_leaves Fin G R0 id_fl (weighted_fwd 1) id_pr q 1 1 2 1 1 (1 / 44) 1000 0 (Fin 1) GR CP ltac:(cbn; lra) SS eq_refl ltac:(lia) ltac:(lra) NE [0] [1] 10 eq_refl eq_refl
    ltac:(constructor; [rewrite Rabs_R0; lra|constructor]) ltac:(constructor; [rewrite Rabs_R1; lra|constructor])).
  rewrite D in NL. cbn [INR] in NL. rewrite sqrt_1 in NL.
  specialize (NL ltac:(cbn; lra) tr1 tr2 [Fin 0] [Fin 1] g ltac:(lia) ltac:(lia) P1 P2).
  assert (DEC : forall tr : list (fvec * fvec * G), List.Forall (inside G 1 1000) tr \/ exists st, In st tr /\ ~ inside G 1 1000 st).
  { intros tr. destruct (Classical_Prop.classic (exists st, In st tr /\ ~ inside G 1 1000 st)) as [H|H]; [auto|]. left. apply List.Forall_forall.
    intros st I. destruct (Classical_Prop.classic (inside G 1 1000 st)); [auto|]. elim H. eauto. }
  assert (OUT : forall st, ~ inside G 1 1000 st -> ~ exists x, fst (fst st) = [Fin x] /\ Rabs x <= 1000).
  { intros st H (x & E & B). apply H. exists [x]. split; [exact E|]. split; [reflexivity|]. constructor; [exact B|constructor]. }
  destruct (DEC tr1) as [F1|(st & I & H)]; [|exists st; auto]. destruct (DEC tr2) as [F2|(st & I & H)]; [|exists st; auto]. elim NL. auto.
Qed.

(** the integers up to 1000 *)
Lemma chop_z : forall z, (-1000 <= z <= 1000)%Z -> chop (IZR z) = Fin (IZR z).
Proof. intros z H. apply (ro_fix _ _ chop_rounding). exists z. split; [reflexivity|]. apply Rabs_le. assert (IZR (-1000) <= IZR z <= IZR 1000) by (split; apply IZR_le; lia). lra. Qed.
Lemma chop_fin : forall x, Rabs x < 1001 -> exists y, chop x = Fin y /\ Rabs y <= Rabs x.
Proof.
  intros x H. unfold chop. destruct (Rlt_dec x 0).
  - rewrite Rabs_left in H by auto. destruct (chop_pos_fin (- x) ltac:(lra) H) as (z & -> & B & C). exists (- IZR z). split; [reflexivity|].
    rewrite Rabs_Ropp, Rabs_pos_eq, Rabs_left by (try (apply IZR_le; lia); auto). lra.
  - rewrite Rabs_pos_eq in H by lra. destruct (chop_pos_fin x ltac:(lra) H) as (z & -> & B & C). exists (IZR z). split; [reflexivity|].
    rewrite !Rabs_pos_eq by (try (apply IZR_le; lia); lra). lra.
Qed.
Lemma chop_0 : forall x, 0 <= x < 1 -> chop x = Fin 0.
Proof.
  intros x H. unfold chop. destruct (Rlt_dec x 0); [lra|]. destruct (chop_pos_fin x ltac:(lra) ltac:(lra)) as (z & -> & B & C).
  assert (z = 0)%Z; [|now subst]. assert (IZR z < IZR 1) by lra. apply lt_IZR in H0. lia.
Qed.
Lemma zadd : forall a b c, (a + b)%Z = c -> (-1000 <= c <= 1000)%Z -> fadd chop (Fin (IZR a)) (Fin (IZR b)) = Fin (IZR c).
Proof. intros a b c <- H. cbn. rewrite <- plus_IZR. now apply chop_z. Qed.
Lemma zsub : forall a b c, (a - b)%Z = c -> (-1000 <= c <= 1000)%Z -> fsub chop (Fin (IZR a)) (Fin (IZR b)) = Fin (IZR c).
Proof. intros a b c <- H. unfold fsub. cbn. rewrite <- opp_IZR, <- plus_IZR. now apply chop_z. Qed.
Lemma zmul : forall a b c, (a * b)%Z = c -> (-1000 <= c <= 1000)%Z -> fmul chop (Fin (IZR a)) (Fin (IZR b)) = Fin (IZR c).
Proof. intros a b c <- H. cbn. rewrite <- mult_IZR. now apply chop_z. Qed.
Lemma zero_mul : forall x, fmul chop (Fin 0) (Fin x) = Fin 0.
Proof. intros x. cbn. rewrite Rmult_0_l. apply (chop_z 0). lia. Qed.

Lemma chop_omega_0 : forall s, (1 <= s <= 31)%Z -> f_omega_0 chop s = Fin 1.
Proof.
  intros s H. unfold f_omega_0, f_int, flit. rewrite (chop_0 (5 / 100)) by lra. rewrite (chop_z (s * s)) by nia. cbn [fdiv].
  destruct (Req_EM_T (IZR (s * s)) 0) as [E|_]; [apply eq_IZR in E; nia|]. unfold Rdiv. rewrite Rmult_0_l. rewrite (chop_z 0) by lia. apply (zadd 1 0 1); lia.
Qed.
Lemma chop_cheb1 : forall k, f_cheb1 chop (Fin 1) k = Fin 1.
Proof.
  assert (Q : forall k, f_cheb1 chop (Fin 1) k = Fin 1 /\ f_cheb1 chop (Fin 1) (S k) = Fin 1); [|apply Q]. induction k as [|k (A & B)]; [split; reflexivity|]. split; [exact B|].
  change (f_cheb1 chop (Fin 1) (S (S k))) with (fsub chop (fmul chop (fmul chop (Fin 2) (Fin 1)) (f_cheb1 chop (Fin 1) (S k))) (f_cheb1 chop (Fin 1) k)).
  rewrite A, B, (zmul 2 1 2), (zmul 2 1 2), (zsub 2 1 1) by lia. reflexivity.
Qed.
Lemma chop_omega_1 : f_omega_1 chop 2 = Ok (Fin 0) /\ f_omega_1 chop 3 = Ok (Fin 0).
Proof.
  assert (C : forall s u, (2 <= s <= 3)%Z -> (1 <= u)%Z -> (s * u <= 1000)%Z -> (1 < s * u)%Z -> f_cheb2 chop (Fin 1) (Z.to_nat s - 1) = Fin (IZR u) -> f_omega_1 chop s = Ok (Fin 0)).
  { intros s u Hs Hu Hsu H1 E. unfold f_omega_1. destruct (Z.eqb_spec s 0); [lia|]. destruct (Z.ltb_spec s 0); [lia|]. rewrite chop_omega_0, chop_cheb1 by lia.
    unfold f_cheb1der, f_int, flit. rewrite E, Z2Nat.id, (chop_z s), (zmul s u (s * u)) by lia. unfold py_fdiv.
    destruct (Req_EM_T (IZR (s * u)) 0) as [E0|_]; [apply eq_IZR in E0; lia|]. cbn [fdiv]. destruct (Req_EM_T (IZR (s * u)) 0) as [E0|_]; [apply eq_IZR in E0; lia|].
    f_equal. apply chop_0. assert (B : 1 < IZR (s * u)) by (apply IZR_lt; lia). split; [apply Rlt_le, Rdiv_lt_0_compat; lra|]. apply (Rmult_lt_reg_r (IZR (s * u))); [lra|].
    unfold Rdiv. rewrite Rmult_assoc, Rinv_l by lra. lra. }
  split; [apply (C 2%Z 2%Z)|apply (C 3%Z 3%Z)]; try lia; cbn [Z.to_nat Nat.sub Pos.to_nat]; cbn [Pos.iter_op Nat.sub].
  - apply (zmul 2 1 2); lia.
  - change (fsub chop (fmul chop (fmul chop (Fin 2) (Fin 1)) (fmul chop (Fin 2) (Fin 1))) (Fin 1) = Fin 3).
    rewrite (zmul 2 1 2), (zmul 2 2 4) by lia. apply (zsub 4 1 3); lia.
Qed.

(** a rounding under which SKROCK cannot be constructed with three stages,
    although it can with exact arithmetic *)
Theorem C65_construction_refuted : exists rnd F q, rounding rnd F /\ n_s q = 3%Z /\ f_skrock_init rnd 3 = Raise ZeroDivisionError /\ exists l, skrock_init q = Ok l.
Proof.
  exists chop, small_int, (mkNum 1 1 3 false). split; [exact chop_rounding|]. split; [reflexivity|]. split; [|destruct (proj2 (proj2 (C16_construction (mkNum 1 1 3 false))) ltac:(cbn; lia)) as (l & E & _); eauto].
  assert (N : Fin 1 <> Fin 0) by (intros H; injection H; lra).
  assert (W : forall j, f_coef chop 3 j = match j with O => Ok (Fin 0, Fin 0, Fin 0)
    | S O => let* mu := py_fdiv chop (Fin 0) (Fin 1) in let* k := py_fdiv chop (fmul chop (f_int chop 3) (Fin 0)) (Fin 1) in Ok (mu, fdiv chop (fmul chop (f_int chop 3) (Fin 0)) (Fin 2), k)
    | _ => let* c := py_fdiv chop (Fin 1) (f_cheb1 chop (Fin 0) j) in Ok (fmul chop (fmul chop (Fin 2) (Fin 0)) c, fmul chop (fmul chop (Fin 2) (Fin 1)) c, fsub chop (Fin 1) (Fin 0)) end).
  { intros j. unfold f_coef. rewrite (proj2 chop_omega_1), chop_omega_0 by lia. cbn [rbind]. destruct j as [|[|j]]; rewrite ?chop_cheb1; reflexivity. }
  unfold f_skrock_init. change (3 =? 0)%Z with false. change (3 <? 0)%Z with false. change (seq 0 (Z.to_nat 3 + 1)) with [0; 1; 2; 3]%nat. cbv iota. cbn [map rseq].
  rewrite !W. assert (D : forall a, exists v, py_fdiv chop a (Fin 1) = Ok v) by (intros a; unfold py_fdiv; destruct (Req_EM_T 1 0); [lra|eauto]).
  destruct (D (Fin 0)) as (v1 & ->). destruct (D (fmul chop (f_int chop 3) (Fin 0))) as (v2 & ->). cbn [rbind].
  assert (T2 : f_cheb1 chop (Fin 0) 2 = Fin (-1)).
  { change (fsub chop (fmul chop (fmul chop (Fin 2) (Fin 0)) (Fin 0)) (Fin 1) = Fin (-1)). rewrite (zmul 2 0 0), (zmul 0 0 0) by lia. apply (zsub 0 1 (-1)); lia. }
  assert (T3 : f_cheb1 chop (Fin 0) 3 = Fin 0).
  { change (fsub chop (fmul chop (fmul chop (Fin 2) (Fin 0)) (f_cheb1 chop (Fin 0) 2)) (Fin 0) = Fin 0). rewrite T2, (zmul 2 0 0), (zmul 0 (-1) 0) by lia. apply (zsub 0 0 0); lia. }
  rewrite T2, T3. unfold py_fdiv. destruct (Req_EM_T (-1) 0); [lra|]. destruct (Req_EM_T 0 0); [|lra]. reflexivity.
Qed.
Print Assumptions C65_construction_refuted.

(** under the same rounding two stages can be constructed, with omega_1 = 0:
    on one pixel a step without noise takes x to 1 - 3 x *)
Definition one_path : fl_problem := f_paths chop 1 [[(0%nat, Fin 1)]] [Fin 1] [Fin 1] (FScal (Fin 1)).
Lemma chop_coef : f_coef chop 2 1 = Ok (Fin 0, Fin 0, Fin 0) /\ f_coef chop 2 2 = Ok (Fin 0, Fin (-2), Fin 1).
Proof.
  assert (D0 : forall b, (b = 1 \/ b = 2)%Z -> fdiv chop (Fin 0) (Fin (IZR b)) = Fin 0).
  { intros b Hb. cbn [fdiv]. destruct (Req_EM_T (IZR b) 0) as [E|_]; [apply eq_IZR in E; lia|]. unfold Rdiv. rewrite Rmult_0_l. apply (chop_z 0). lia. }
  assert (P : py_fdiv chop (Fin 0) (Fin 1) = Ok (Fin 0)).
  { unfold py_fdiv. destruct (Req_EM_T 1 0); [lra|]. f_equal. apply (D0 1%Z). auto. }
  split; unfold f_coef; rewrite (proj1 chop_omega_1), chop_omega_0 by lia; cbn [rbind].
  - rewrite P. unfold f_int, flit. rewrite (chop_z 2), (zmul 2 0 0) by lia. rewrite P. cbn [rbind]. rewrite (D0 2%Z) by auto. reflexivity.
  - assert (T2 : f_cheb1 chop (Fin 0) 2 = Fin (-1)).
    { change (fsub chop (fmul chop (fmul chop (Fin 2) (Fin 0)) (Fin 0)) (Fin 1) = Fin (-1)). rewrite (zmul 2 0 0), (zmul 0 0 0) by lia. apply (zsub 0 1 (-1)); lia. }
    rewrite T2, chop_cheb1. assert (Q : py_fdiv chop (Fin 1) (Fin (-1)) = Ok (Fin (-1))).
    { unfold py_fdiv. destruct (Req_EM_T (-1) 0); [lra|]. cbn [fdiv]. destruct (Req_EM_T (-1) 0); [lra|]. replace (1 / -1) with (IZR (-1)) by (cbn; field). f_equal. apply chop_z. lia. }
    rewrite Q. cbn [rbind]. rewrite (zmul 2 0 0), zero_mul, (zmul 2 1 2), (zmul 2 (-1) (-2)), (zsub 1 0 1) by lia. reflexivity.
Qed.
Lemma fzip1 : forall op a b, fzip op [a] [b] = Ok [op a b].
Proof. reflexivity. Qed.
Lemma one_grad : forall z, (-400 <= z <= 400)%Z -> exists v, f_gradlogpi chop one_path (Fin 2) [Fin (IZR z)] = Ok [Fin v].
Proof.
  intros z Hz. assert (HR : Rabs (IZR z) <= 400) by (apply Rabs_le; assert (IZR (-400) <= IZR z <= IZR 400) by (split; apply IZR_le; lia); lra).
  assert (S : exists w, f_soft1 chop (Fin 1) (Fin (IZR z)) = Fin w /\ Rabs w <= 400).
  { destruct (Rle_dec (Rabs (IZR z)) 1) as [L|L].
    - exists 0. split; [|rewrite Rabs_R0; lra]. exact (proj2 (proj2 (proj2 (C63_soft_specials chop (Fin 1) (Fin (IZR z))))) _ _ eq_refl eq_refl L).
    - destruct (C63_soft_numbers chop small_int (IZR z) 1 chop_rounding) as (y & _ & B & E & _); [exists z; split; [reflexivity|lra]|lra|lra|]. exists (sgn (IZR z) * y). split; [exact E|].
      rewrite Rabs_mult. unfold sgn. destruct (Rlt_dec (IZR z) 0); [|destruct (Rlt_dec 0 (IZR z))]; [rewrite Rabs_left by lra|rewrite Rabs_R1|rewrite Rabs_R0]; rewrite (Rabs_pos_eq y) by lra; lra. }
  destruct S as (w & S & Hw). unfold f_gradlogpi, one_path, f_paths. cbn [fp_proxf fp_forward fp_gradg f_soft map]. rewrite S. cbn [rbind].
  assert (FW : f_path_forward chop 1 [[(0%nat, Fin 1)]] [Fin (IZR z)] = Ok [Fin (IZR z)]).
  { unfold f_path_forward. cbn [length Nat.eqb map]. change (fspdot chop [(0%nat, Fin 1)] [Fin (IZR z)]) with (fadd chop (Fin 0) (fmul chop (Fin 1) (Fin (IZR z)))). rewrite (zmul 1 z z), (zadd 0 z z) by lia. reflexivity. }
  assert (GR : f_gradg chop 1 [[(0%nat, Fin 1)]] [Fin 1] [Fin 1] [Fin (IZR z)] = Ok [Fin (IZR (z - 1))]).
  { unfold f_gradg. rewrite fzip1. cbn [rbind]. rewrite (zsub z 1 (z - 1)) by lia.
    unfold f_weigh. rewrite fzip1. cbn [rbind]. unfold fzerob. destruct (Req_EM_T 1 0); [lra|]. cbn [orb].
    assert (W : (if if Req_EM_T (IZR (z - 1)) 0 then true else false then Fin 0 else fadd chop (Fin 0) (fmul chop (Fin 1) (Fin (IZR (z - 1))))) = Fin (IZR (z - 1))).
    { destruct (Req_EM_T (IZR (z - 1)) 0) as [E|_]; [now rewrite E|]. rewrite (zmul 1 (z - 1) (z - 1)), (zadd 0 (z - 1) (z - 1)) by lia. reflexivity. }
    rewrite W. change (Ok [fadd chop (Fin 0) (fmul chop (Fin 1) (Fin (IZR (z - 1))))] = Ok [Fin (IZR (z - 1))]). rewrite (zmul 1 (z - 1) (z - 1)), (zadd 0 (z - 1) (z - 1)) by lia. reflexivity. }
  rewrite FW. rewrite fzip1. cbn [rbind map]. rewrite GR. cbn [rbind].
  destruct (chop_fin (IZR z - w)) as (a & Ea & Ba).
  { eapply Rle_lt_trans; [apply Rabs_triang|]. rewrite Rabs_Ropp. lra. }
  assert (Ba' : Rabs a <= 800) by (eapply Rle_trans; [exact Ba|]; eapply Rle_trans; [apply Rabs_triang|]; rewrite Rabs_Ropp; lra).
  unfold fsub at 2. cbn [fneg fadd]. change (IZR z + - w) with (IZR z - w). rewrite Ea. cbn [fdiv]. destruct (Req_EM_T 2 0); [lra|].
  destruct (chop_fin (a / 2)) as (b & Eb & Bb).
  { unfold Rdiv. rewrite Rabs_mult, (Rabs_pos_eq (/ 2)) by lra. lra. }
  rewrite Eb. assert (Bb' : Rabs b <= 400) by (eapply Rle_trans; [exact Bb|]; unfold Rdiv; rewrite Rabs_mult, (Rabs_pos_eq (/ 2)) by lra; lra).
  rewrite fzip1. unfold fsub. cbn [fneg fadd].
  destruct (chop_fin (- b + - IZR (z - 1))) as (v & Ev & _).
  { eapply Rle_lt_trans; [apply Rabs_triang|]. rewrite !Rabs_Ropp. assert (Rabs (IZR (z - 1)) <= 401); [|lra]. apply Rabs_le.
    assert (IZR (-401) <= IZR (z - 1) <= IZR 401) by (split; apply IZR_le; lia). lra. }
  rewrite Ev. exists v. reflexivity.
Qed.
Lemma one_step : forall z, (-400 <= z <= 400)%Z ->
  f_skstep chop 2 zeros one_path (Fin 2) (Fin 1) [Fin (IZR z)] tt = (Ok [fsub chop (Fin (IZR (1 - 2 * z))) (Fin (IZR z))], tt).
Proof.
  intros z Hz. destruct (one_grad z Hz) as (v & EG). unfold f_skstep, zeros. cbn [length repeat map]. change (Z.to_nat 2) with 2%nat. f_equal.
  assert (SQ : exists r, fsqrt chop (fmul chop (Fin 2) (Fin 1)) = Fin r).
  { rewrite (zmul 2 1 2) by lia. cbn [fsqrt]. destruct (Rlt_dec 2 0); [lra|]. destruct (chop_fin (sqrt 2)) as (r & E & _); [|eauto].
    rewrite Rabs_pos_eq by apply sqrt_pos. apply Rlt_trans with 2; [|lra]. rewrite <- (sqrt_square 2) at 2 by lra. apply sqrt_lt_1; lra. }
  destruct SQ as (r & SQ).
  assert (K1 : f_K chop 2 one_path (Fin 2) (Fin 1) [Fin (IZR z)] 1 [Fin 0] = Ok [Fin (IZR z)]).
  { cbn [f_K]. rewrite (proj1 chop_coef). cbn [rbind]. rewrite SQ. cbv zeta. rewrite !zero_mul. unfold fscal. cbn [map]. rewrite zero_mul.
    rewrite fzip1. cbn [rbind]. rewrite (zadd z 0 z) by lia. rewrite EG. cbn [rbind map]. rewrite zero_mul.
    rewrite fzip1. cbn [rbind]. rewrite (zadd z 0 z) by lia. rewrite fzip1. cbn [rbind]. rewrite (zadd z 0 z) by lia. reflexivity. }
  rewrite K_eq. rewrite (proj2 chop_coef). cbn [rbind]. rewrite K1. cbn [rbind]. rewrite EG. cbn [rbind]. unfold fscal. cbn [map]. rewrite !zero_mul.
  rewrite (zmul (-2) z (-2 * z)) by lia. rewrite fzip1. cbn [rbind]. rewrite (zadd 0 (-2 * z) (-2 * z)) by lia. cbn [f_K rbind map].
  rewrite (zadd (-2 * z) 1 (1 - 2 * z)) by lia. rewrite fzip1. reflexivity.
Qed.
Lemma one_shapes : float_shapes one_path 1 1.
Proof. apply (paths_shapes chop 1 [[(0%nat, Fin 1)]] [Fin 1] [Fin 1]); reflexivity. Qed.

(** the chain from 5: the values grow, leave the range of the floats in the
    fifth step and are NaN from the sixth on *)
Definition six_prm := Build_params 6 0 0 0 ["logposterior"; "L2"; "prior"; "chain"]%string.
Definition one_ops := fl_sk_ops chop 2 zeros zeros (fun g : unit => (0, g)) one_path (Fin 2) (Fin 1).
Example C65_overflow_case :
  (exists l, f_skrock_init chop 2 = Ok l) /\
  exists s0 w' c, new_sampler one_ops six_prm (Fin 1) = Ok s0 /\
    skrock_run one_ops six_prm 10 (Some [Fin 5]) (mkWorld s0 tt) = (w', Ret tt) /\ i_chain (w_inst w') = Some c /\
    c = [[Fin (-14)]; [Fin 43]; [Fin (-128)]; [Fin 385]; [NInf]; [NaN]].
Proof.
  assert (IN : exists l, f_skrock_init chop 2 = Ok l).
  { unfold f_skrock_init. change (2 =? 0)%Z with false. change (2 <? 0)%Z with false. change (seq 0 (Z.to_nat 2 + 1)) with [0; 1; 2]%nat. cbv iota. cbn [map rseq].
    rewrite (proj1 chop_coef), (proj2 chop_coef). assert (E0 : f_coef chop 2 0 = Ok (Fin 0, Fin 0, Fin 0)) by (unfold f_coef; rewrite (proj1 chop_omega_1); reflexivity). rewrite E0. eexists. reflexivity. }
  split; [exact IN|]. destruct IN as (l & IN).
  assert (ZR : forall k g, length (fst (zeros k g)) = k) by (intros; apply repeat_length).
  assert (NS : exists s0, new_sampler one_ops six_prm (Fin 1) = Ok s0 /\ sized s0 6 /\ ~ line_array_missing s0 /\ i_chain s0 <> None /\ i_delta s0 = Fin 1).
  { eexists. split; [reflexivity|]. split; [unfold sized; cbn; auto 10|]. split; [unfold line_array_missing; cbn; intros H; decompose [or] H; discriminate|]. split; [cbn; discriminate|reflexivity]. }
  destruct NS as (s0 & N1 & N2 & N3 & N4 & N5).
  destruct (C65_runs_end chop 2 l unit zeros zeros (fun g => (0, g)) one_path (Fin 2) (Fin 1) 1 1 six_prm 10 (Some [Fin 5]) (mkWorld s0 tt) 6 ZR ZR IN one_shapes
    ltac:(intros x E; injection E as <-; reflexivity) N2 eq_refl N3 ltac:(vm_compute; repeat constructor)) as (w' & RN).
  fold one_ops in RN. exists s0, w'.
  destruct (C01_skrock_schedule _ _ _ _ _ _ one_ops six_prm 10 _ (mkWorld s0 tt) w' 6 N2 eq_refl RN) as (st & tr & lg & _ & _ & _ & _ & LL & _ & RR & _).
  destruct RR as (_ & _ & _ & _ & RR). cbn [w_inst] in RR.
  destruct (i_chain s0) as [a0|] eqn:E0; [|now elim N4]. destruct (i_chain (w_inst w')) as [c|] eqn:EC; [|destruct RR]. clear RR st tr lg LL.
  exists c. split; [exact N1|]. split; [exact RN|]. split; [reflexivity|].
  destruct (sk_rows chop 2 unit zeros zeros (fun g => (0, g)) one_path (Fin 2) (Fin 1) six_prm 6 10 [Fin 5] (mkWorld s0 tt) w' c) as (tr & d & _ & _ & PT & LC & V); auto.
  { intros x d E. cbn in E. unfold f_path_forward in E. destruct (Nat.eqb_spec (length x) 1) as [L|]; [exact L|discriminate]. }
  cbn [w_inst w_rng] in PT. rewrite N5 in PT. fold one_ops in PT.
  assert (LT : forall j, (j < 6)%nat -> exists row d' g', nth_error c j = Some row /\ nth_error tr j = Some (row, d', g')).
  { intros j Hj. destruct (nth_error c j) as [row|] eqn:Ej; [|apply nth_error_None in Ej; lia]. destruct (V j row Ej) as (d' & g' & Et). exists row, d', g'. split; [reflexivity|].
    rewrite <- Et. f_equal. unfold save_iter, first_save, stride. cbn. lia. }
  assert (ST : forall z y d0 g0 X' d' g', (-400 <= z <= 400)%Z -> fsub chop (Fin (IZR (1 - 2 * z))) (Fin (IZR z)) = y -> skrock_trans one_ops (Fin 1) ([Fin (IZR z)], d0, g0) (X', d', g') -> X' = [y]).
  { intros z y d0 g0 X' d' g' Hz Ey (T & _). destruct g0. change (f_skstep chop 2 zeros one_path (Fin 2) (Fin 1) [Fin (IZR z)] tt = (Ok X', g')) in T. rewrite (one_step z Hz), Ey in T. congruence. }
  destruct tr as [|((x1 & d1) & g1) tr]; [destruct (LT 0%nat ltac:(lia)) as (? & ? & ? & _ & H); discriminate|]. inversion PT as [|? ? ? T1 P1]; subst; clear PT.
  apply (ST 5%Z (Fin (-14))) in T1; [|lia|apply (zsub (-9) 5 (-14)); lia]. subst x1.
  destruct tr as [|((x2 & d2) & g2) tr]; [destruct (LT 1%nat ltac:(lia)) as (? & ? & ? & _ & H); discriminate|]. inversion P1 as [|? ? ? T2 P2]; subst; clear P1.
  apply (ST (-14)%Z (Fin 43)) in T2; [|lia|apply (zsub 29 (-14) 43); lia]. subst x2.
  destruct tr as [|((x3 & d3) & g3) tr]; [destruct (LT 2%nat ltac:(lia)) as (? & ? & ? & _ & H); discriminate|]. inversion P2 as [|? ? ? T3 P3]; subst; clear P2.
  apply (ST 43%Z (Fin (-128))) in T3; [|lia|apply (zsub (-85) 43 (-128)); lia]. subst x3.
  destruct tr as [|((x4 & d4) & g4) tr]; [destruct (LT 3%nat ltac:(lia)) as (? & ? & ? & _ & H); discriminate|]. inversion P3 as [|? ? ? T4 P4]; subst; clear P3.
  apply (ST (-128)%Z (Fin 385)) in T4; [|lia|apply (zsub 257 (-128) 385); lia]. subst x4.
  destruct tr as [|((x5 & d5) & g5) tr]; [destruct (LT 4%nat ltac:(lia)) as (? & ? & ? & _ & H); discriminate|]. inversion P4 as [|? ? ? T5 P5]; subst; clear P4.
  apply (ST 385%Z NInf) in T5; [|lia|unfold fsub; cbn; unfold chop, chop_pos; destruct (Rlt_dec _ 0); [|lra]; destruct (Rle_dec 1001 _); [reflexivity|lra]]. subst x5.
  destruct tr as [|((x6 & d6) & g6) tr]; [destruct (LT 5%nat ltac:(lia)) as (? & ? & ? & _ & H); discriminate|]. inversion P5 as [|? ? ? T6 P6]; subst; clear P5 P6.
  assert (E6 : x6 = [NaN]).
  { assert (N6 := C65_infinite_entry chop 2 unit zeros zeros (fun g => (0, g)) (Fin 2) (Fin 1) 1 [[(0%nat, Fin 1)]] [Fin 1] [Fin 1] (Fin 1) (Fin 1) [NInf] d5 g5 x6 d6 g6 0 NInf ltac:(discriminate) ltac:(lia) eq_refl ltac:(discriminate) T6 0 0 ltac:(cbn; lia) eq_refl).
    destruct T6 as (_ & F). cbn in F. unfold f_path_forward in F. destruct (Nat.eqb_spec (length x6) 1) as [L|]; [|discriminate].
    destruct x6 as [|v [|? ?]]; try discriminate. unfold nan_at in N6. cbn in N6. congruence. }
  subst x6. clear - LT LC.
  destruct c as [|r1 [|r2 [|r3 [|r4 [|r5 [|r6 [|r7 c]]]]]]]; try discriminate.
  pose proof (LT 0%nat ltac:(lia)) as (? & ? & ? & A & B); cbn in A, B; injection A as <-; injection B as -> _ _.
  pose proof (LT 1%nat ltac:(lia)) as (? & ? & ? & A & B); cbn in A, B; injection A as <-; injection B as -> _ _.
  pose proof (LT 2%nat ltac:(lia)) as (? & ? & ? & A & B); cbn in A, B; injection A as <-; injection B as -> _ _.
  pose proof (LT 3%nat ltac:(lia)) as (? & ? & ? & A & B); cbn in A, B; injection A as <-; injection B as -> _ _.
  pose proof (LT 4%nat ltac:(lia)) as (? & ? & ? & A & B); cbn in A, B; injection A as <-; injection B as -> _ _.
  pose proof (LT 5%nat ltac:(lia)) as (? & ? & ? & A & B); cbn in A, B; injection A as <-; injection B as -> _ _.
  reflexivity.
Qed.

(** the two paths of C63_case with two stages: a NaN at pixel 0 has reached pixels
    1 and 2 after the first step, and an infinite value at pixel 0 pixel 1 *)
Example C65_case : forall (X' : fvec) d' (g' : unit) v,
  let o := fl_sk_ops chop 2 zeros zeros (fun g : unit => (0, g)) (two_paths [Fin 1; Fin 1]) (Fin 2) (Fin 1) in
  (forall z, v <> Fin z) ->
  skrock_trans o (Fin 1) ([v; Fin 0; Fin 0; Fin 5], [Fin 0; Fin 0], tt) (X', d', g') ->
  nan_at 0 X' /\ nan_at 1 X' /\ (v = NaN -> nan_at 2 X').
Proof.
  intros X' d' g' v o Nv T.
  assert (W : f_weights chop [Fin 1; Fin 1] = [Fin 1; Fin 1]).
  { unfold f_weights. cbn [map]. rewrite (zmul 1 1 1) by lia. cbn [fdiv]. destruct (Req_EM_T 1 0); [lra|]. replace (1 / 1) with (IZR 1) by field. rewrite (chop_z 1) by lia. reflexivity. }
  unfold o, two_paths in T. rewrite W in T. fold two_rows in T.
  assert (S01 : share two_rows [Fin 1; Fin 1] 0 1).
  { exists 0%nat, [(0%nat, Fin 1); (1%nat, Fin 1)], (Fin 1), (Fin 1), (Fin 1). repeat (split; [reflexivity|]). split; [cbn; destruct (Req_EM_T 1 0); [lra|reflexivity]|]. cbn. auto. }
  assert (S12 : share two_rows [Fin 1; Fin 1] 1 2).
  { exists 1%nat, [(1%nat, Fin 1); (2%nat, Fin 1)], (Fin 1), (Fin 1), (Fin 1). repeat (split; [reflexivity|]). split; [cbn; destruct (Req_EM_T 1 0); [lra|reflexivity]|]. cbn. auto. }
  assert (Q := fun k j => C65_infinite_entry chop 2 unit zeros zeros (fun g => (0, g)) (Fin 2) (Fin 1) 4 two_rows [Fin 1; Fin 1] [Fin 1; Fin 1] (Fin 1) (Fin 1) [v; Fin 0; Fin 0; Fin 5] [Fin 0; Fin 0] tt X' d' g' 0%nat v
    ltac:(discriminate) ltac:(lia) eq_refl Nv T k j).
  split; [apply (Q 0%nat); [cbn; lia|reflexivity]|]. split; [apply (Q 1%nat); [cbn; lia|right; exists 1%nat; split; [lia|]; split; [exact S01|reflexivity]]|].
  intros ->. apply (C65_spread chop 2 unit zeros zeros (fun g => (0, g)) (Fin 2) (Fin 1) 4 two_rows [Fin 1; Fin 1] [Fin 1; Fin 1] (Fin 1) (Fin 1) [(X', d', g')] [NaN; Fin 0; Fin 0; Fin 5] [Fin 0; Fin 0] tt
    (path_cons _ _ _ _ T (path_nil _ _)) 0%nat X' d' g' 2%nat 0%nat 2%nat eq_refl ltac:(cbn; lia) ltac:(lia) eq_refl).
  right. exists 1%nat. split; [lia|]. split; [exact S01|]. right. exists 2%nat. split; [lia|]. split; [exact S12|reflexivity].
Qed.
