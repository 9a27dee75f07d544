(** Lemmas for C69: means of Lipschitz functions along a contracting chain. *)
From Coq Require Import List ZArith Lia Bool Reals Lra Psatz.
From Coquelicot Require Import Coquelicot.
From Verif Require Import PyBase CVec OpSpec Prior Forward McmcSpec FwdProof Sampler SamplerSpec Mcmc StepProof
  StableProof SkDivProof MomentSpec MomentProof ErgSpec.
Import ListNotations.
Notation length := List.length.
Open Scope R_scope.

(** ** distance *)
Lemma dist_nonneg : forall x y, 0 <= dist x y. Proof. intros; apply sqrt_pos. Qed.
Lemma dist_sq : forall x y, dist x y ^ 2 = nrm2 (vsub x y). Proof. intros. apply pow2_sqrt, nrm2_nonneg. Qed.
Lemma dist_sym : forall x y, length x = length y -> dist x y = dist y x.
Proof. intros x y L. exact (nm_vopp x y L). Qed.
Lemma dist_tri : forall x y z, length x = length y -> length y = length z -> dist x z <= dist x y + dist y z.
Proof.
  intros x y z L1 L2. assert (E : vsub x z = vadd (vsub x y) (vsub y z)).
  { revert y z L1 L2. unfold vsub, vadd. induction x as [|a x IH]; intros [|b y] [|c z] L1 L2; cbn in *; try lia; [reflexivity|]. f_equal; [ring|apply IH; lia]. }
  unfold dist. rewrite E. apply (nm_vadd (vsub x y) (vsub y z)). rewrite !vsub_length; congruence.
Qed.
Lemma dist_pow : forall r k x y x' y', 0 <= r -> nrm2 (vsub x' y') <= r ^ k * nrm2 (vsub x y) -> dist x' y' <= sqrt r ^ k * dist x y.
Proof.
  intros r k x y x' y' Hr H. apply Rsqr_incr_0_var.
  - rewrite !Rsqr_pow2, Rpow_mult_distr, !dist_sq, <- pow_mult, Nat.mul_comm, pow_mult, pow2_sqrt by exact Hr. exact H.
  - apply Rmult_le_pos; [apply pow_le, sqrt_pos|apply dist_nonneg].
Qed.

Lemma same_shift : forall x y z, length x = length y -> length y = length z -> vsub (vadd x z) (vadd y z) = vsub x y.
Proof.
  unfold vsub, vadd. induction x as [|u x IH]; intros [|s y] [|t z] L1 L2; cbn in *; try lia; [reflexivity|]. f_equal; [ring|apply IH; lia].
Qed.

(** ** expectations *)
Lemma expect_opp : forall S k h, expect S k (fun l => - h l) = - expect S k h.
Proof. intros. transitivity (expect S k (fun l => -1 * h l)); [|rewrite expect_scal; ring].
  induction k as [|k IH] in h |- *; cbn; [ring|]. apply mean_ext. intros; apply IH. Qed.
Lemma expect_minus : forall S k h h', expect S k (fun l => h l - h' l) = expect S k h - expect S k h'.
Proof. intros. transitivity (expect S k (fun l => h l + - h' l)); [reflexivity|]. rewrite expect_plus, expect_opp. reflexivity. Qed.
Lemma expect_rsum : forall S k {I} (F : I -> list (list R) -> R) ls, expect S k (fun l => rsum (map (fun i => F i l) ls)) = rsum (map (fun i => expect S k (F i)) ls).
Proof.
  intros S k I F ls. induction ls as [|i ls IH]; cbn [map rsum fold_right].
  - transitivity (expect S k (fun _ => 0 * 1)); [|rewrite expect_scal; ring]. clear. induction k as [|k IH]; cbn; [ring|]. apply mean_ext. intros; apply IH.
  - fold (rsum (map (fun i => expect S k (F i)) ls)). rewrite <- IH. apply expect_plus.
Qed.

Section Law.
Variables (S : law) (n : nat).
Hypothesis LS : forall pw, In pw S -> 0 <= fst pw /\ length (snd pw) = n.
Hypothesis M1 : mean S (fun _ => 1) = 1.

Lemma LSn : forall pw, In pw S -> length (snd pw) = n. Proof. intros; apply LS; auto. Qed.

Lemma expect_abs : forall k h, Rabs (expect S k h) <= expect S k (fun l => Rabs (h l)).
Proof.
  intros k h. apply Rabs_le. split.
  - rewrite <- expect_opp. apply (expect_le S n); [exact LS|]. intros l _. assert (A := Rle_abs (- h l)). rewrite Rabs_Ropp in A. lra.
  - apply (expect_le S n); [exact LS|]. intros l _. apply Rle_abs.
Qed.
(** (E h)^2 <= E h^2 *)
Lemma expect_jensen : forall k h, (expect S k h) ^ 2 <= expect S k (fun l => h l ^ 2).
Proof.
  intros k h. set (m := expect S k h).
  assert (P : 0 <= expect S k (fun l => (h l - m) ^ 2)).
  { rewrite <- (expect_const S k 0 M1). apply (expect_le S n); [exact LS|]. intros l _. apply pow2_ge_0. }
  assert (E : expect S k (fun l => (h l - m) ^ 2) = expect S k (fun l => h l ^ 2) + (- 2 * m * expect S k h + m ^ 2)).
  { rewrite <- (expect_const S k (m ^ 2) M1) at 1. rewrite <- expect_scal, <- !expect_plus. apply (expect_ext S n); [exact LSn|]. intros; ring. }
  fold m in E. rewrite E in P. lra.
Qed.
End Law.

(** ** the chain *)
Section Chain.
Variables (A : vec -> vec) (c : R) (b : bool) (S : law) (n : nat) (v r : R) (xs : vec).
Hypothesis W : white S n v.
Hypothesis LA : forall X, length X = n -> length (A X) = n.
Hypothesis Hr : 0 <= r < 1.
Hypothesis CT : forall X Y, length X = n -> length Y = n -> nrm2 (vsub (A X) (A Y)) <= r * nrm2 (vsub X Y).
Hypothesis Lx : length xs = n.
Hypothesis Fx : A xs = xs.

Let LS : forall pw, In pw S -> 0 <= fst pw /\ length (snd pw) = n := proj1 W.
Let LN : forall pw, In pw S -> length (snd pw) = n := LSn S n LS.
Let M1 : mean S (fun _ => 1) = 1 := proj1 (proj2 W).
Notation p := (per_step b).
Notation itr := (it A c b).
Definition rho := sqrt r.

Lemma rho_range : 0 <= rho < 1.
Proof. unfold rho. split; [apply sqrt_pos|]. rewrite <- sqrt_1. apply sqrt_lt_1; lra. Qed.
Lemma rho_pow : forall k, 0 <= rho ^ k. Proof. intros; apply pow_le, rho_range. Qed.
Lemma rho_pow1 : forall k, rho ^ k <= 1.
Proof. intros k. destruct rho_range. induction k as [|k IH]; cbn; [lra|]. assert (Q := rho_pow k). nra. Qed.

Lemma tape_app : forall a d l, tape_of n (a + d) l -> exists l1 l2, l = l1 ++ l2 /\ tape_of n a l1 /\ tape_of n d l2.
Proof.
  intros a d l (L & T). exists (firstn a l), (skipn a l). split; [symmetry; apply firstn_skipn|]. split; split.
  - rewrite firstn_length; lia.
  - intros w Hw. apply T. rewrite <- (firstn_skipn a l). apply in_or_app; auto.
  - rewrite skipn_length; lia.
  - intros w Hw. apply T. rewrite <- (firstn_skipn a l). apply in_or_app; auto.
Qed.
Lemma it_prefix : forall k X l1 l2, tape_of n (p * k) l1 -> itr k X (l1 ++ l2) = itr k X l1.
Proof.
  induction k as [|k IH]; intros X l1 l2 T; [reflexivity|]. replace (p * Datatypes.S k)%nat with (p + p * k)%nat in T by lia.
  destruct (tape_app _ _ _ T) as (a & d & -> & Ta & Td). cbn [it]. rewrite <- app_assoc, !noise_of_app, !skipn_exact by apply Ta. apply IH, Td.
Qed.
Lemma it_plus : forall i k X l1 l2, tape_of n (p * i) l1 -> itr (i + k) X (l1 ++ l2) = itr k (itr i X l1) l2.
Proof.
  induction i as [|i IH]; intros k X l1 l2 T.
  - destruct T as (T & _). rewrite Nat.mul_0_r in T. destruct l1; [reflexivity|discriminate].
  - replace (p * Datatypes.S i)%nat with (p + p * i)%nat in T by lia.
    destruct (tape_app _ _ _ T) as (a & d & -> & Ta & Td). cbn [it Nat.add]. rewrite <- app_assoc, !noise_of_app, !skipn_exact by apply Ta. apply IH, Td.
Qed.
Lemma itl : forall k X l, length X = n -> tape_of n (p * k) l -> length (itr k X l) = n.
Proof. intros. apply (it_length A c b n); auto. Qed.

Lemma it_contract : forall k X Y l, length X = n -> length Y = n -> tape_of n (p * k) l ->
  nrm2 (vsub (itr k X l) (itr k Y l)) <= r ^ k * nrm2 (vsub X Y).
Proof.
  induction k as [|k IH]; intros X Y l LX LY T; [cbn [it pow]; lra|]. replace (p * Datatypes.S k)%nat with (p + p * k)%nat in T by lia.
  destruct (tape_app _ _ _ T) as (a & d & -> & Ta & Td). cbn [it]. rewrite !noise_of_app, !skipn_exact by apply Ta.
  assert (LNo := tape_noise_length b n a Ta). assert (L1 := LA X LX). assert (L2 := LA Y LY).
  set (w := vscal (RtoC c) (noise_of b a)). assert (Lw : length w = n) by (unfold w; rewrite vscal_length; exact LNo).
  eapply Rle_trans; [apply IH; [rewrite vadd_length; congruence|rewrite vadd_length; congruence|exact Td]|].
  assert (E : vsub (vadd (A X) w) (vadd (A Y) w) = vsub (A X) (A Y)).
  { apply same_shift; congruence. }
  rewrite E. cbn [pow]. assert (Q := CT X Y LX LY). assert (P : 0 <= r ^ k) by (apply pow_le; lra). apply (Rmult_le_compat_l (r ^ k)) in Q; [lra|exact P].
Qed.

(** mean of h after k steps *)
Definition after (k : nat) (h : vec -> R) (X : vec) : R := expect S (p * k) (fun l => h (itr k X l)).

Lemma after_more : forall k K h X, (p * k <= K)%nat -> expect S K (fun l => h (itr k X l)) = after k h X.
Proof.
  intros k K h X H. replace K with (p * k + (K - p * k))%nat by lia. rewrite expect_app. unfold after.
  apply (expect_ext S n); [exact LN|]. intros l T. rewrite <- (expect_const S (K - p * k) (h (itr k X l)) M1).
  apply (expect_ext S n); [exact LN|]. intros l2 _. rewrite it_prefix by exact T. reflexivity.
Qed.
Lemma after_plus : forall i k h X, length X = n -> after (i + k) h X = after i (after k h) X.
Proof.
  intros i k h X LX. unfold after at 1. rewrite Nat.mul_add_distr_l, expect_app. unfold after at 1.
  apply (expect_ext S n); [exact LN|]. intros l T. unfold after. apply (expect_ext S n); [exact LN|]. intros l2 _. now rewrite it_plus.
Qed.
Lemma after_ext : forall k h h' X, length X = n -> (forall x, length x = n -> h x = h' x) -> after k h X = after k h' X.
Proof. intros k h h' X LX H. unfold after. apply (expect_ext S n); [exact LN|]. intros l T. apply H, itl; auto. Qed.
Lemma after_le : forall k h h' X, length X = n -> (forall x, length x = n -> h x <= h' x) -> after k h X <= after k h' X.
Proof. intros k h h' X LX H. unfold after. apply (expect_le S n); [exact LS|]. intros l T. apply H, itl; auto. Qed.
Lemma after_lin : forall k g h a d X, after k (fun x => a * g x + d * h x) X = a * after k g X + d * after k h X.
Proof. intros. unfold after. now rewrite expect_plus, !expect_scal. Qed.
Lemma after_const : forall k a X, after k (fun _ => a) X = a.
Proof. intros. unfold after. apply expect_const, M1. Qed.

Lemma after_close : forall k C h X Y, lipschitz n C h -> length X = n -> length Y = n -> Rabs (after k h X - after k h Y) <= C * rho ^ k * dist X Y.
Proof.
  intros k C h X Y (C0 & H) LX LY. unfold after. rewrite <- expect_minus. eapply Rle_trans; [apply (expect_abs S n LS)|].
  rewrite <- (expect_const S (p * k) (C * rho ^ k * dist X Y) M1). apply (expect_le S n); [exact LS|]. intros l T.
  eapply Rle_trans; [apply H; apply itl; auto|]. rewrite Rmult_assoc. apply Rmult_le_compat_l; [exact C0|]. apply dist_pow; [lra|]. apply it_contract; auto.
Qed.
Lemma after_lipschitz : forall k C h, lipschitz n C h -> lipschitz n (C * rho ^ k) (after k h).
Proof. intros k C h H. split; [apply Rmult_le_pos; [apply H|apply rho_pow]|]. intros. apply after_close; auto. Qed.

(** bound on the mean square distance from the centre *)
Definition spread := c ^ 2 * (v * INR n * INR p) / (1 - r).
Lemma v_pos : 0 <= v * INR n.
Proof.
  assert (E := proj2 (proj2 (proj2 W))). rewrite <- E. apply Rle_trans with (mean S (fun _ => 0 * 0)); [rewrite mean_scal; lra|].
  apply mean_le; [intros; apply LS; auto|]. intros pw _. rewrite Rmult_0_l. apply rsum_nonneg. intros z Hz. apply in_map_iff in Hz. destruct Hz as (t & <- & _). apply pow2_ge_0.
Qed.
Lemma spread_pos : 0 <= spread.
Proof.
  unfold spread. apply Rmult_le_pos; [|left; apply Rinv_0_lt_compat; lra]. apply Rmult_le_pos; [apply pow2_ge_0|]. apply Rmult_le_pos; [apply v_pos|apply pos_INR].
Qed.
Lemma second_bound : forall k X, length X = n -> after k (fun x => nrm2 (vsub x xs)) X <= nrm2 (vsub X xs) + spread.
Proof.
  intros k X LX. unfold after. eapply Rle_trans.
  { apply (second_upper A c b S n v W LA r xs); [lra|exact Lx| |exact LX|lia]. intros Y LY. rewrite <- Fx at 1. apply CT; auto. }
  assert (P1 : r ^ k <= 1) by (clear - Hr; induction k as [|k IH]; cbn; [lra|]; assert (Q := pow_le r k ltac:(lra)); nra).
  assert (P0 : 0 <= r ^ k) by (apply pow_le; lra). assert (N0 := nrm2_nonneg (vsub X xs)).
  assert (G : geom r k <= / (1 - r)). { assert (Q := geom_value r k). apply Rmult_le_reg_l with (1 - r); [lra|]. rewrite Q, Rinv_r by lra. lra. }
  assert (C0 : 0 <= c ^ 2 * (v * INR n * INR p)) by (apply Rmult_le_pos; [apply pow2_ge_0|]; apply Rmult_le_pos; [apply v_pos|apply pos_INR]).
  apply (Rmult_le_compat_l _ _ _ C0) in G. fold (Rdiv (c ^ 2 * (v * INR n * INR p)) (1 - r)) in G. fold spread in G.
  apply Rplus_le_compat; [|exact G]. rewrite <- (Rmult_1_l (nrm2 (vsub X xs))) at 2. now apply Rmult_le_compat_r.
Qed.
Lemma first_bound : forall k X, length X = n -> after k (fun x => dist x xs) X <= dist X xs + sqrt spread.
Proof.
  intros k X LX. assert (J := expect_jensen S n LS M1 (p * k) (fun l => dist (itr k X l) xs)). fold (after k (fun x => dist x xs) X) in J.
  assert (Q : expect S (p * k) (fun l => dist (itr k X l) xs ^ 2) <= nrm2 (vsub X xs) + spread).
  { eapply Rle_trans; [|apply (second_bound k X LX)]. apply Req_le. apply (expect_ext S n); [exact LN|]. intros. apply dist_sq. }
  assert (D := dist_nonneg X xs). assert (B := sqrt_pos spread). apply Rsqr_incr_0_var; [|lra]. rewrite !Rsqr_pow2.
  eapply Rle_trans; [exact J|]. eapply Rle_trans; [exact Q|]. rewrite <- (dist_sq X xs). rewrite <- (pow2_sqrt spread) at 1 by apply spread_pos. nra.
Qed.

Definition reach (X : vec) := 2 * dist X xs + sqrt spread.
Lemma reach_nonneg : forall X, 0 <= reach X.
Proof. intros X. unfold reach. assert (D := dist_nonneg X xs). assert (B := sqrt_pos spread). lra. Qed.

Lemma after_settles : forall C h i k X, lipschitz n C h -> length X = n -> Rabs (after (i + k) h X - after k h X) <= C * rho ^ k * reach X.
Proof.
  intros C h i k X H LX. rewrite after_plus by exact LX. rewrite <- (after_const i (after k h X) X) at 1.
  assert (E : after i (after k h) X - after i (fun _ => after k h X) X = expect S (p * i) (fun l => after k h (itr i X l) - after k h X)).
  { symmetry. apply expect_minus. }
  rewrite E. eapply Rle_trans; [apply (expect_abs S n LS)|].
  assert (CK : 0 <= C * rho ^ k) by (apply Rmult_le_pos; [apply H|apply rho_pow]).
  apply Rle_trans with (expect S (p * i) (fun l => C * rho ^ k * (dist (itr i X l) xs + dist X xs))).
  - apply (expect_le S n); [exact LS|]. intros l T. assert (LI := itl i X l LX T). eapply Rle_trans; [apply (after_close k C); auto|].
    apply Rmult_le_compat_l; [exact CK|]. rewrite (dist_sym X xs) by congruence. apply dist_tri; congruence.
  - rewrite expect_scal, expect_plus, expect_const by exact M1. apply Rmult_le_compat_l; [exact CK|]. assert (F := first_bound i X LX). unfold after in F. unfold reach. lra.
Qed.

(** the limit *)
Definition settled (h : vec -> R) : R := real (Lim_seq (fun k => after k h xs)).

Lemma rho_lim : is_lim_seq (fun k => rho ^ k) 0.
Proof. apply is_lim_seq_geom. rewrite Rabs_pos_eq; apply rho_range. Qed.
Lemma settled_lim0 : forall C h, lipschitz n C h -> is_lim_seq (fun k => after k h xs) (settled h).
Proof.
  intros C h H. apply Lim_seq_correct'. apply ex_lim_seq_cauchy_corr. intros eps.
  set (D := C * reach xs). assert (D0 : 0 <= D) by (apply Rmult_le_pos; [apply H|apply reach_nonneg]).
  assert (L := rho_lim). apply is_lim_seq_spec in L. destruct (L (mkposreal (eps / (2 * (D + 1))) ltac:(apply Rdiv_lt_0_compat; [apply cond_pos|lra]))) as (N & HN). cbn in HN.
  assert (P : forall k, (N <= k)%nat -> Rabs (after k h xs - after N h xs) <= eps / (2 * (D + 1)) * D).
  { intros k Hk. replace k with ((k - N) + N)%nat by lia. eapply Rle_trans; [apply (after_settles C); auto|]. specialize (HN N (le_n N)). rewrite Rminus_0_r, Rabs_pos_eq in HN by apply rho_pow.
    replace (C * rho ^ N * reach xs) with (rho ^ N * D) by (unfold D; ring). apply Rmult_le_compat_r; [exact D0|lra]. }
  exists N. intros i k Hi Hk. assert (P1 := P i Hi). assert (P2 := P k Hk).
  assert (Q : eps / (2 * (D + 1)) * D < eps / 2).
  { replace (eps / 2) with (eps / (2 * (D + 1)) * (D + 1)) by (field; lra). apply Rmult_lt_compat_l; [apply Rdiv_lt_0_compat; [apply cond_pos|lra]|lra]. }
  replace (after i h xs - after k h xs) with ((after i h xs - after N h xs) - (after k h xs - after N h xs)) by ring.
  eapply Rle_lt_trans; [apply Rabs_triang|]. rewrite Rabs_Ropp. lra.
Qed.
Lemma settled_lim : forall C h X, lipschitz n C h -> length X = n -> is_lim_seq (fun k => after k h X) (settled h).
Proof.
  intros C h X H LX. apply (is_lim_seq_ext (fun k => after k h xs + (after k h X - after k h xs))); [intros; ring|].
  replace (Finite (settled h)) with (Finite (settled h + 0)) by (f_equal; ring). apply is_lim_seq_plus'; [eapply settled_lim0; eauto|].
  apply is_lim_seq_abs_0. apply (is_lim_seq_le_le (fun _ => 0) _ (fun k => C * dist X xs * rho ^ k)).
  - intros k. split; [apply Rabs_pos|]. eapply Rle_trans; [apply (after_close k C); auto|]. apply Req_le. ring.
  - apply is_lim_seq_const.
  - replace (Finite 0) with (Rbar_mult (C * dist X xs) 0) by (cbn; f_equal; ring). apply is_lim_seq_scal_l, rho_lim.
Qed.
Lemma settled_rate : forall C h k X, lipschitz n C h -> length X = n -> Rabs (after k h X - settled h) <= C * rho ^ k * reach X.
Proof.
  intros C h k X H LX. rewrite Rabs_minus_sym.
  assert (L : is_lim_seq (fun i => Rabs (after (i + k) h X - after k h X)) (Rabs (settled h - after k h X))).
  { apply (is_lim_seq_abs _ (settled h - after k h X)). apply is_lim_seq_minus'; [|apply is_lim_seq_const]. apply (is_lim_seq_incr_n (fun i => after i h X) k), (settled_lim C); auto. }
  exact (is_lim_seq_le _ (fun _ => C * rho ^ k * reach X) (Finite _) (Finite _) (fun i => after_settles C h i k X H LX) L (is_lim_seq_const _)).
Qed.

Lemma lipschitz_lin : forall C D g h a d, lipschitz n C g -> lipschitz n D h -> lipschitz n (Rabs a * C + Rabs d * D) (fun x => a * g x + d * h x).
Proof.
  intros C D g h a d (C0 & G) (D0 & H). split; [apply Rplus_le_le_0_compat; apply Rmult_le_pos; auto using Rabs_pos|].
  intros x y LX LY. replace (a * g x + d * h x - (a * g y + d * h y)) with (a * (g x - g y) + d * (h x - h y)) by ring.
  eapply Rle_trans; [apply Rabs_triang|]. rewrite !Rabs_mult, Rmult_plus_distr_r, !Rmult_assoc.
  apply Rplus_le_compat; apply Rmult_le_compat_l; auto using Rabs_pos.
Qed.
Lemma lipschitz_const : forall a, lipschitz n 0 (fun _ => a).
Proof. intros a. split; [lra|]. intros. rewrite Rminus_diag_eq, Rabs_R0 by reflexivity. lra. Qed.
Lemma settled_const : forall a, settled (fun _ => a) = a.
Proof.
  intros a. assert (L := settled_lim0 0 _ (lipschitz_const a)). assert (L2 : is_lim_seq (fun k => after k (fun _ => a) xs) a).
  { apply (is_lim_seq_ext (fun _ => a)); [intros; now rewrite after_const|apply is_lim_seq_const]. }
  apply is_lim_seq_unique in L, L2. rewrite L in L2. now injection L2.
Qed.
Lemma settled_lin : forall C D g h a d, lipschitz n C g -> lipschitz n D h -> settled (fun x => a * g x + d * h x) = a * settled g + d * settled h.
Proof.
  intros C D g h a d G H. assert (L := settled_lim0 _ _ (lipschitz_lin _ _ _ _ a d G H)).
  assert (L2 : is_lim_seq (fun k => after k (fun x => a * g x + d * h x) xs) (a * settled g + d * settled h)).
  { apply (is_lim_seq_ext (fun k => a * after k g xs + d * after k h xs)); [intros; now rewrite after_lin|].
    apply is_lim_seq_plus'; apply (is_lim_seq_scal_l _ _ (Finite _)); [apply (settled_lim0 C)|apply (settled_lim0 D)]; auto. }
  apply is_lim_seq_unique in L, L2. rewrite L in L2. now injection L2.
Qed.
Lemma settled_le : forall C D g h, lipschitz n C g -> lipschitz n D h -> (forall x, length x = n -> g x <= h x) -> settled g <= settled h.
Proof.
  intros C D g h G H Q. apply (is_lim_seq_le (fun k => after k g xs) (fun k => after k h xs) (settled g) (settled h)).
  - intros k. apply after_le; auto.
  - eapply settled_lim0; eauto.
  - eapply settled_lim0; eauto.
Qed.
Lemma settled_ext : forall C g h, lipschitz n C g -> (forall x, length x = n -> g x = h x) -> settled g = settled h.
Proof. intros C g h G E. unfold settled. f_equal. apply Lim_seq_ext. intros k. apply after_ext; auto. Qed.
Lemma settled_step : forall C h, lipschitz n C h -> settled (after 1 h) = settled h.
Proof.
  intros C h H. assert (L := settled_lim0 _ _ (after_lipschitz 1 _ _ H)). assert (L2 := settled_lim0 _ _ H).
  apply is_lim_seq_incr_1 in L2.
  assert (L3 : is_lim_seq (fun k => after k (after 1 h) xs) (settled h)).
  { apply (is_lim_seq_ext (fun k => after (Datatypes.S k) h xs)); [|exact L2]. intros k. rewrite <- after_plus by exact Lx. f_equal. lia. }
  apply is_lim_seq_unique in L, L3. rewrite L in L3. now injection L3.
Qed.
Lemma dist_lipschitz : lipschitz n 1 (fun x => dist x xs).
Proof.
  split; [lra|]. intros x y LX LY. rewrite Rmult_1_l. assert (T1 := dist_tri x y xs ltac:(congruence) ltac:(congruence)). assert (T2 := dist_tri y x xs ltac:(congruence) ltac:(congruence)).
  rewrite (dist_sym y x) in T2 by congruence. apply Rabs_le. lra.
Qed.
(** there is no other *)
Lemma settled_unique : forall mu : (vec -> R) -> R,
  mu (fun _ => 1) = 1 ->
  (forall C D g h a d, lipschitz n C g -> lipschitz n D h -> mu (fun x => a * g x + d * h x) = a * mu g + d * mu h) ->
  (forall C D g h, lipschitz n C g -> lipschitz n D h -> (forall x, length x = n -> g x <= h x) -> mu g <= mu h) ->
  (forall C h, lipschitz n C h -> mu (after 1 h) = mu h) ->
  forall C h, lipschitz n C h -> mu h = settled h.
Proof.
  intros mu U1 UL UM US C h H.
  assert (UE : forall C D g h, lipschitz n C g -> lipschitz n D h -> (forall x, length x = n -> g x = h x) -> mu g = mu h).
  { intros C0 D0 g g' G G' E. apply Rle_antisym; [apply (UM C0 D0)|apply (UM D0 C0)]; auto; intros x L; rewrite (E x L); lra. }
  assert (UK : forall k, mu (after k h) = mu h).
  { induction k as [|k IH].
    - apply (UE (C * rho ^ 0) C); auto; [apply after_lipschitz, H|]. intros x L. unfold after. rewrite Nat.mul_0_r. reflexivity.
    - rewrite <- IH, <- (US _ _ (after_lipschitz k _ _ H)). apply (UE (C * rho ^ Datatypes.S k) (C * rho ^ k * rho ^ 1)); [apply after_lipschitz, H|apply after_lipschitz, after_lipschitz, H|].
      intros x L. rewrite <- after_plus by exact L. f_equal. }
  assert (UC : forall a, mu (fun _ => a) = a).
  { intros a. rewrite (UE 0 (Rabs a * 0 + Rabs 0 * 0) (fun _ => a) (fun x => a * 1 + 0 * 1)); [|apply lipschitz_const|apply (lipschitz_lin 0 0 (fun _ => 1) (fun _ => 1)); apply lipschitz_const|intros; ring].
    rewrite (UL 0 0 (fun _ => 1) (fun _ => 1)), U1 by apply lipschitz_const. ring. }
  set (D := mu (fun x => dist x xs)). set (E := C * (2 * D + sqrt spread)).
  assert (B : forall k, Rabs (mu h - settled h) <= rho ^ k * E).
  { intros k. rewrite <- (UK k). set (ck := C * rho ^ k). assert (ck0 : 0 <= ck) by (apply Rmult_le_pos; [apply H|apply rho_pow]).
    assert (LB : forall s, lipschitz n (Rabs (s * (2 * ck)) * 1 + Rabs (settled h + s * (ck * sqrt spread)) * 0) (fun x => s * (2 * ck) * dist x xs + (settled h + s * (ck * sqrt spread)) * 1)).
    { intros s. apply (lipschitz_lin 1 0 (fun x => dist x xs) (fun _ => 1)); [apply dist_lipschitz|apply lipschitz_const]. }
    assert (V : forall s, mu (fun x => s * (2 * ck) * dist x xs + (settled h + s * (ck * sqrt spread)) * 1) = settled h + s * (rho ^ k * E)).
    { intros s. rewrite (UL 1 0 (fun x => dist x xs) (fun _ => 1)); [|apply dist_lipschitz|apply lipschitz_const]. rewrite U1. fold D. unfold E, ck. ring. }
    assert (P1 := UM _ _ _ _ (after_lipschitz k _ _ H) (LB 1)). assert (P2 := UM _ _ _ _ (LB (-1)) (after_lipschitz k _ _ H)). rewrite V in P1, P2.
    assert (Q1 : mu (after k h) <= settled h + 1 * (rho ^ k * E)).
    { apply P1. intros x L. assert (Q := settled_rate C h k x H L). apply Rabs_le_between in Q. unfold reach in Q. fold ck in Q. lra. }
    assert (Q2 : settled h + -1 * (rho ^ k * E) <= mu (after k h)).
    { apply P2. intros x L. assert (Q := settled_rate C h k x H L). apply Rabs_le_between in Q. unfold reach in Q. fold ck in Q. lra. }
    apply Rabs_le. lra. }
  assert (Z : Rabs (mu h - settled h) <= 0).
  { apply (is_lim_seq_le (fun _ => Rabs (mu h - settled h)) (fun k => rho ^ k * E) (Rabs (mu h - settled h)) 0 B); [apply is_lim_seq_const|].
    replace (Finite 0) with (Rbar_mult 0 E) by (cbn; f_equal; ring). apply is_lim_seq_scal_r, rho_lim. }
  assert (Z0 := Rabs_pos (mu h - settled h)). destruct (Req_dec (mu h - settled h) 0) as [Q|Q]; [lra|]. apply Rabs_no_R0 in Q. lra.
Qed.

(** ** two times *)
Definition size (X : vec) := 8 * nrm2 (vsub X xs) + 10 * spread.
Lemma size_nonneg : forall X, 0 <= size X.
Proof. intros X. unfold size. assert (N := nrm2_nonneg (vsub X xs)). assert (P := spread_pos). lra. Qed.

Lemma correlation : forall C h X a d K, lipschitz n C h -> length X = n -> (a <= d)%nat -> (p * d <= K)%nat ->
  expect S K (fun l => (h (itr a X l) - settled h) * (h (itr d X l) - settled h)) <= C ^ 2 * size X * rho ^ (d - a).
Proof.
  intros C h X a d K H LX Ha HK. set (e := (d - a)%nat). set (g := fun x => h x - settled h).
  assert (E : expect S K (fun l => g (itr a X l) * g (itr d X l)) = after a (fun x => g x * (after e h x - settled h)) X).
  { assert (HA := Nat.mul_le_mono_l a d p Ha). replace K with (p * a + (K - p * a))%nat by lia. rewrite expect_app. unfold after at 1. apply (expect_ext S n); [exact LN|]. intros l1 T1.
    assert (L1 := itl a X l1 LX T1). set (x := itr a X l1) in *.
    transitivity (expect S (K - p * a) (fun l2 => g x * (h (itr e x l2) - settled h))).
    - apply (expect_ext S n); [exact LN|]. intros l2 _. rewrite it_prefix by exact T1. replace d with (a + e)%nat by (unfold e; lia). rewrite it_plus by exact T1. reflexivity.
    - rewrite expect_scal, expect_minus, expect_const by exact M1. rewrite after_more; [reflexivity|]. unfold e. rewrite Nat.mul_sub_distr_l. lia. }
  unfold g in E at 1 2. rewrite E. clear E. assert (RK := rho_pow e). assert (C0 := proj1 H).
  apply Rle_trans with (after a (fun x => C ^ 2 * rho ^ e * 8 * nrm2 (vsub x xs) + C ^ 2 * rho ^ e * (2 * spread) * 1) X).
  - apply after_le; [exact LX|]. intros x L. assert (Q0 := settled_rate C h 0 x H L). assert (Qe := settled_rate C h e x H L).
    assert (E0 : after 0 h x = h x) by (unfold after; rewrite Nat.mul_0_r; reflexivity). rewrite E0 in Q0. cbn [pow] in Q0. rewrite Rmult_1_r in Q0.
    assert (R0 := reach_nonneg x). eapply Rle_trans; [apply Rle_abs|]. rewrite Rabs_mult. unfold g.
    apply Rle_trans with (C * reach x * (C * rho ^ e * reach x)); [apply Rmult_le_compat; auto using Rabs_pos|].
    assert (RR : reach x ^ 2 <= 8 * nrm2 (vsub x xs) + 2 * spread).
    { unfold reach. rewrite <- (dist_sq x xs). rewrite <- (pow2_sqrt spread) at 2 by apply spread_pos. assert (Z := pow2_ge_0 (2 * dist x xs - sqrt spread)). lra. }
    assert (CC : 0 <= C ^ 2 * rho ^ e) by (apply Rmult_le_pos; [apply pow2_ge_0|exact RK]). apply (Rmult_le_compat_l _ _ _ CC) in RR. lra.
  - rewrite after_lin, after_const. assert (Q := second_bound a X LX). assert (CC : 0 <= C ^ 2 * rho ^ e) by (apply Rmult_le_pos; [apply pow2_ge_0|exact RK]).
    apply (Rmult_le_compat_l (C ^ 2 * rho ^ e * 8)) in Q; [|lra]. unfold size. lra.
Qed.

Lemma geometric_tail : forall m, rsum (map (fun j => rho ^ (m - j)) (seq 0 m)) <= rho / (1 - rho).
Proof.
  destruct rho_range as (R0 & R1). assert (E : forall m, rsum (map (fun j => rho ^ (m - j)) (seq 0 m)) * (1 - rho) = rho * (1 - rho ^ m)).
  { induction m as [|m IH]; [cbn; ring|]. cbn [seq map rsum fold_right]. fold (rsum (map (fun j => rho ^ (Datatypes.S m - j)) (seq 1 m))).
    rewrite <- seq_shift, map_map. cbn [Nat.sub]. rewrite Rmult_plus_distr_r, IH. cbn [pow]. ring. }
  intros m. assert (Q := E m). assert (P := rho_pow m). apply Rmult_le_reg_r with (1 - rho); [lra|]. rewrite Q. unfold Rdiv. rewrite Rmult_assoc, Rinv_l by lra. nra.
Qed.

(** the sum over the steps t 0 < t 1 < ... < t (N-1) *)
Lemma sum_square : forall C h X (t : nat -> nat) K, lipschitz n C h -> length X = n -> (forall i j, (i < j)%nat -> (t i + (j - i) <= t j)%nat) ->
  forall N, (forall j, (j < N)%nat -> (p * t j <= K)%nat) ->
  expect S K (fun l => rsum (map (fun j => h (itr (t j) X l) - settled h) (seq 0 N)) ^ 2) <= INR N * (2 / (1 - rho)) * (C ^ 2 * size X).
Proof.
  intros C h X t K H LX Ht. set (g := fun j l => h (itr (t j) X l) - settled h). set (B := C ^ 2 * size X).
  destruct rho_range as (R0 & R1). assert (B0 : 0 <= B) by (apply Rmult_le_pos; [apply pow2_ge_0|apply size_nonneg]).
  induction N as [|N IH]; intros HK.
  - cbn [seq map rsum fold_right INR]. rewrite (expect_const S K (0 ^ 2) M1). cbn. lra.
  - change (expect S K (fun l => rsum (map (fun j => g j l) (seq 0 (Datatypes.S N))) ^ 2) <= INR (Datatypes.S N) * (2 / (1 - rho)) * B).
    assert (IH' := IH ltac:(intros; apply HK; lia)). clear IH.
    assert (E : expect S K (fun l => rsum (map (fun j => g j l) (seq 0 (Datatypes.S N))) ^ 2) =
      expect S K (fun l => rsum (map (fun j => g j l) (seq 0 N)) ^ 2) + (2 * rsum (map (fun j => expect S K (fun l => g j l * g N l)) (seq 0 N)) + expect S K (fun l => g N l * g N l))).
    { rewrite <- expect_rsum, <- expect_scal, <- !expect_plus. apply (expect_ext S n); [exact LN|]. intros l _.
      rewrite seq_S, map_app, rsum_app. cbn [map rsum fold_right Nat.add]. 
      assert (Q : rsum (map (fun j => g j l * g N l) (seq 0 N)) = g N l * rsum (map (fun j => g j l) (seq 0 N))).
      { rewrite <- rsum_map_scal. apply rsum_map_ext. intros; ring. }
      rewrite Q. ring. }
    rewrite E. clear E.
    assert (P1 : rsum (map (fun j => expect S K (fun l => g j l * g N l)) (seq 0 N)) <= B * (rho / (1 - rho))).
    { apply Rle_trans with (rsum (map (fun j => B * rho ^ (N - j)) (seq 0 N))).
      - apply rsum_map_le. intros j Hj. apply in_seq in Hj. assert (Hjt := Ht j N ltac:(lia)).
        eapply Rle_trans; [apply (correlation C h X (t j) (t N) K H LX); [lia|apply HK; lia]|]. fold B. apply Rmult_le_compat_l; [exact B0|].
        replace (t N - t j)%nat with ((N - j) + (t N - t j - (N - j)))%nat by lia. rewrite pow_add. rewrite <- (Rmult_1_r (rho ^ (N - j))) at 2. apply Rmult_le_compat_l; [apply rho_pow|apply rho_pow1].
      - rewrite rsum_map_scal. apply Rmult_le_compat_l; [exact B0|apply geometric_tail]. }
    assert (P2 : expect S K (fun l => g N l * g N l) <= B).
    { eapply Rle_trans; [apply (correlation C h X (t N) (t N) K H LX); [lia|apply HK; lia]|]. rewrite Nat.sub_diag. rewrite pow_O, Rmult_1_r. apply Rle_refl. }
    rewrite S_INR. assert (Q : 2 * (B * (rho / (1 - rho))) + B <= 2 / (1 - rho) * B).
    { replace (2 * (B * (rho / (1 - rho))) + B) with (B * ((1 + rho) / (1 - rho))) by (field; lra). replace (2 / (1 - rho) * B) with (B * (2 / (1 - rho))) by (field; lra).
      apply Rmult_le_compat_l; [exact B0|]. apply Rmult_le_compat_r; [left; apply Rinv_0_lt_compat; lra|lra]. }
    unfold g in *. lra.
Qed.
End Chain.
