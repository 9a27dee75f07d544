(** C58: the floating-point tables of Ieee.v are the extensions of the real
    operations by limits.  An infinity stands for a sequence that diverges to it,
    NaN for a limit that does not exist or depends on the sequences. *)
From Coq Require Import List ZArith Bool Reals Lra Lia Psatz String.
From Coquelicot Require Import Coquelicot.
From Verif Require Import PyBase Ieee.
Import ListNotations.
Open Scope R_scope.

(** [u] tends to the float [a] *)
Definition tends (u : nat -> R) (a : float) : Prop :=
  match a with
  | Fin r => is_lim_seq u (Finite r)
  | PInf => is_lim_seq u p_infty
  | NInf => is_lim_seq u m_infty
  | NaN => False
  end.

(** [op] extends [f]; [dom] restricts the sequences that may stand for the
    second operand *)
Definition extends (f : R -> R -> R) (dom : float -> (nat -> R) -> Prop)
    (op : float -> float -> float) : Prop :=
  (forall a, op NaN a = NaN /\ op a NaN = NaN) /\
  (forall a b, a <> NaN -> b <> NaN -> op a b <> NaN ->
     forall u v, tends u a -> tends v b -> dom b v ->
       tends (fun n => f (u n) (v n)) (op a b)) /\
  (forall a b, a <> NaN -> b <> NaN -> op a b = NaN ->
     exists u v u' v' l l', tends u a /\ tends v b /\ dom b v /\
       tends u' a /\ tends v' b /\ dom b v' /\
       tends (fun n => f (u n) (v n)) l /\ tends (fun n => f (u' n) (v' n)) l' /\ l <> l').

Definition any_seq (b : float) (v : nat -> R) : Prop := True.
(** a zero divisor is approached from above: zeros have no sign in the model *)
Definition above_zero (b : float) (v : nat -> R) : Prop := b = Fin 0 -> forall n, 0 < v n.

Definition up (n : nat) : R := INR n + 1.

Lemma up_pos n : 0 < up n.
Proof. unfold up. pose proof (pos_INR n). lra. Qed.
Lemma up_neq n : up n <> 0.
Proof. pose proof (up_pos n). lra. Qed.
Lemma lim_up : is_lim_seq up p_infty.
Proof.
  unfold up. eapply is_lim_seq_plus; [apply is_lim_seq_INR|apply is_lim_seq_const|]. reflexivity.
Qed.
Lemma lim_opp u l : is_lim_seq u l -> is_lim_seq (fun n => - u n) (Rbar_opp l).
Proof. intros H. apply is_lim_seq_opp in H. exact H. Qed.
Lemma lim_down : is_lim_seq (fun n => - up n) m_infty.
Proof. apply (lim_opp up p_infty), lim_up. Qed.
Lemma lim_inv_up : is_lim_seq (fun n => / up n) 0.
Proof. apply (is_lim_seq_inv up p_infty); [apply lim_up|discriminate]. Qed.
Lemma lim_scal c u : is_lim_seq u p_infty -> 0 < c -> is_lim_seq (fun n => c * u n) p_infty.
Proof.
  intros H Hc. eapply is_lim_seq_mult; [apply is_lim_seq_const|exact H|].
  apply is_Rbar_mult_sym, is_Rbar_mult_p_infty_pos. exact Hc.
Qed.

Lemma INR_above (x : R) : exists k, x < INR k.
Proof. destruct (nfloor_ex (Rabs x) (Rabs_pos x)) as [k Hk]. exists (S k). rewrite S_INR. pose proof (Rle_abs x). lra. Qed.

Lemma tends_ext u v a : (forall n, u n = v n) -> tends u a -> tends v a.
Proof. intros E. destruct a; cbn; auto; apply is_lim_seq_ext; exact E. Qed.

(** tends as a limit in Rbar *)
Definition rb (a : float) : Rbar :=
  match a with Fin r => Finite r | PInf => p_infty | NInf => m_infty | NaN => Finite 0 end.
Lemma tends_rb u a : tends u a -> is_lim_seq u (rb a).
Proof. destruct a; cbn; tauto. Qed.
Lemma rb_tends u a : a <> NaN -> is_lim_seq u (rb a) -> tends u a.
Proof. destruct a; cbn; tauto. Qed.

Lemma finf_pos x : 0 < x -> finf x = PInf.
Proof. unfold finf. destruct (total_order_T x 0) as [[?|?]|?]; intros; try lra; reflexivity. Qed.
Lemma finf_neg x : x < 0 -> finf x = NInf.
Proof. unfold finf. destruct (total_order_T x 0) as [[?|?]|?]; intros; try lra; reflexivity. Qed.
Lemma finf_0 : finf 0 = NaN.
Proof. unfold finf. destruct (total_order_T 0 0) as [[?|?]|?]; try lra; reflexivity. Qed.

Theorem C58_add_limit : extends Rplus any_seq (fadd Fin).
Proof.
  split; [|split].
  - intros []; split; reflexivity.
  - intros a b Ha Hb Hn u v Hu Hv _. apply rb_tends; [exact Hn|].
    apply tends_rb in Hu, Hv. eapply is_lim_seq_plus; [exact Hu|exact Hv|].
    destruct a, b; cbn in *; try reflexivity; congruence.
  - intros a b Ha Hb Hn.
    destruct a, b; cbn in Hn; try congruence.
    + exists up, (fun n => - up n), (fun n => up n + 1), (fun n => - up n), (Fin 0), (Fin 1).
      unfold any_seq. cbn.
      repeat match goal with |- _ /\ _ => split end; auto using lim_up, lim_down.
      * eapply is_lim_seq_plus; [apply lim_up|apply is_lim_seq_const|reflexivity].
      * eapply is_lim_seq_ext; [|apply is_lim_seq_const]. intros n; cbn; ring.
      * eapply is_lim_seq_ext; [|apply is_lim_seq_const]. intros n; cbn; ring.
      * intros [= E]. lra.
    + exists (fun n => - up n), up, (fun n => - up n), (fun n => up n + 1), (Fin 0), (Fin 1).
      unfold any_seq. cbn.
      repeat match goal with |- _ /\ _ => split end; auto using lim_up, lim_down.
      * eapply is_lim_seq_plus; [apply lim_up|apply is_lim_seq_const|reflexivity].
      * eapply is_lim_seq_ext; [|apply is_lim_seq_const]. intros n; cbn; ring.
      * eapply is_lim_seq_ext; [|apply is_lim_seq_const]. intros n; cbn; ring.
      * intros [= E]. lra.
Qed.
Print Assumptions C58_add_limit.

Lemma tends_neg u a : tends u a -> tends (fun n => - u n) (fneg a).
Proof.
  destruct a; cbn; auto; intros H.
  - apply (lim_opp u r H).
  - apply (lim_opp u p_infty H).
  - apply (lim_opp u m_infty H).
Qed.
Lemma fneg_invol a : fneg (fneg a) = a.
Proof. destruct a; cbn; auto. f_equal; ring. Qed.
Lemma fneg_nan a : fneg a = NaN <-> a = NaN.
Proof. destruct a; cbn; split; congruence. Qed.

(** negation is the limit too, and subtraction *)
Theorem C58_neg_limit :
  fneg NaN = NaN /\
  (forall a, a <> NaN -> fneg a <> NaN) /\
  (forall u a, tends u a -> tends (fun n => - u n) (fneg a)).
Proof.
  split; [reflexivity|split].
  - intros a H E. apply H. destruct a; cbn in *; congruence.
  - exact tends_neg.
Qed.
Print Assumptions C58_neg_limit.

Theorem C58_sub_limit : extends Rminus any_seq (fsub Fin).
Proof.
  destruct C58_add_limit as [A [B D]]. unfold fsub. split; [|split].
  - intros a. destruct (A a) as [A1 A2]. split; [apply A|exact A2].
  - intros a b Ha Hb Hn u v Hu Hv _.
    apply (tends_ext (fun n => u n + - v n)); [intros; unfold Rminus; reflexivity|].
    apply (B a (fneg b) Ha); auto.
    + rewrite fneg_nan. exact Hb.
    + apply tends_neg, Hv.
    + exact I.
  - intros a b Ha Hb Hn.
    destruct (D a (fneg b) Ha) as (u & v & u' & v' & l & l' & H1 & H2 & _ & H3 & H4 & _ & H5 & H6 & H7).
    + rewrite fneg_nan. exact Hb.
    + exact Hn.
    + exists u, (fun n => - v n), u', (fun n => - v' n), l, l'.
      apply tends_neg in H2, H4. rewrite fneg_invol in H2, H4. unfold any_seq.
      repeat match goal with |- _ /\ _ => split end; auto.
      * eapply tends_ext; [|exact H5]. intros n; cbn; ring.
      * eapply tends_ext; [|exact H6]. intros n; cbn; ring.
Qed.
Print Assumptions C58_sub_limit.

Theorem C58_mul_limit : extends Rmult any_seq (fmul Fin).
Proof.
  split; [|split].
  - intros []; split; reflexivity.
  - intros a b Ha Hb Hn u v Hu Hv _. apply rb_tends; [exact Hn|].
    apply tends_rb in Hu, Hv. eapply is_lim_seq_mult; [exact Hu|exact Hv|].
    destruct a as [x| | |], b as [y| | |]; cbn [fmul rb] in *; try congruence; try reflexivity.
    + destruct (total_order_T x 0) as [[L|L]|L].
      * rewrite finf_neg in Hn |- * by lra. apply is_Rbar_mult_sym, is_Rbar_mult_p_infty_neg, L.
      * subst. rewrite finf_0 in Hn. cbn in Hn. congruence.
      * rewrite finf_pos in Hn |- * by lra. apply is_Rbar_mult_sym, is_Rbar_mult_p_infty_pos, L.
    + destruct (total_order_T x 0) as [[L|L]|L].
      * rewrite finf_neg in Hn |- * by lra. apply is_Rbar_mult_sym, is_Rbar_mult_m_infty_neg, L.
      * subst. rewrite finf_0 in Hn. cbn in Hn. congruence.
      * rewrite finf_pos in Hn |- * by lra. apply is_Rbar_mult_sym, is_Rbar_mult_m_infty_pos, L.
    + destruct (total_order_T y 0) as [[L|L]|L].
      * rewrite finf_neg in Hn |- * by lra. apply is_Rbar_mult_p_infty_neg, L.
      * subst. rewrite finf_0 in Hn. cbn in Hn. congruence.
      * rewrite finf_pos in Hn |- * by lra. apply is_Rbar_mult_p_infty_pos, L.
    + destruct (total_order_T y 0) as [[L|L]|L].
      * rewrite finf_neg in Hn |- * by lra. apply is_Rbar_mult_m_infty_neg, L.
      * subst. rewrite finf_0 in Hn. cbn in Hn. congruence.
      * rewrite finf_pos in Hn |- * by lra. apply is_Rbar_mult_m_infty_pos, L.
  - (* 0 times an infinity *)
    assert (Z : forall x, finf x = NaN -> x = 0).
    { intros x E. destruct (total_order_T x 0) as [[L|L]|L]; auto;
        [rewrite finf_neg in E by lra|rewrite finf_pos in E by lra]; discriminate. }
    intros a b Ha Hb Hn.
    destruct a as [x| | |], b as [y| | |]; cbn [fmul] in *; try congruence.
    + apply Z in Hn. subst.
      exists (fun _ => 0), up, (fun n => / up n), up, (Fin 0), (Fin 1). unfold any_seq; cbn.
      repeat match goal with |- _ /\ _ => split end; auto using lim_up, lim_inv_up, is_lim_seq_const.
      * eapply is_lim_seq_ext; [|apply is_lim_seq_const]. intros n; cbn; ring.
      * eapply is_lim_seq_ext; [|apply is_lim_seq_const]. intros n; cbn; field; apply up_neq.
      * intros [= E]; lra.
    + apply fneg_nan, Z in Hn. subst.
      exists (fun _ => 0), (fun n => - up n), (fun n => / up n), (fun n => - up n), (Fin 0), (Fin (-1)). unfold any_seq; cbn.
      repeat match goal with |- _ /\ _ => split end; auto using lim_down, lim_inv_up, is_lim_seq_const.
      * eapply is_lim_seq_ext; [|apply is_lim_seq_const]. intros n; cbn; ring.
      * eapply is_lim_seq_ext; [|apply is_lim_seq_const]. intros n; cbn; field; apply up_neq.
      * intros [= E]; lra.
    + apply Z in Hn. subst.
      exists up, (fun _ => 0), up, (fun n => / up n), (Fin 0), (Fin 1). unfold any_seq; cbn.
      repeat match goal with |- _ /\ _ => split end; auto using lim_up, lim_inv_up, is_lim_seq_const.
      * eapply is_lim_seq_ext; [|apply is_lim_seq_const]. intros n; cbn; ring.
      * eapply is_lim_seq_ext; [|apply is_lim_seq_const]. intros n; cbn; field; apply up_neq.
      * intros [= E]; lra.
    + apply fneg_nan, Z in Hn. subst.
      exists (fun n => - up n), (fun _ => 0), (fun n => - up n), (fun n => / up n), (Fin 0), (Fin (-1)). unfold any_seq; cbn.
      repeat match goal with |- _ /\ _ => split end; auto using lim_down, lim_inv_up, is_lim_seq_const.
      * eapply is_lim_seq_ext; [|apply is_lim_seq_const]. intros n; cbn; ring.
      * eapply is_lim_seq_ext; [|apply is_lim_seq_const]. intros n; cbn; field; apply up_neq.
      * intros [= E]; lra.
Qed.
Print Assumptions C58_mul_limit.

(** reciprocals of positive sequences *)
Lemma lim_inv_above v : is_lim_seq v 0 -> (forall n, 0 < v n) -> is_lim_seq (fun n => / v n) p_infty.
Proof.
  intros H P. apply is_lim_seq_spec. intros M.
  apply is_lim_seq_spec in H.
  assert (0 < / (Rabs M + 1)) by (apply Rinv_0_lt_compat; pose proof (Rabs_pos M); lra).
  destruct (H (mkposreal _ H0)) as [N HN]. exists N. intros n Hn. specialize (HN n Hn). cbn in HN.
  specialize (P n). rewrite Rminus_0_r, Rabs_pos_eq in HN by lra.
  apply Rinv_lt_contravar in HN; [|apply Rmult_lt_0_compat; lra].
  rewrite Rinv_inv in HN.
  pose proof (Rle_abs M). lra.
Qed.

Theorem C58_div_limit : extends Rdiv above_zero (fdiv Fin).
Proof.
  assert (Z : forall x, finf x = NaN -> x = 0).
  { intros x E. destruct (total_order_T x 0) as [[L|L]|L]; auto;
      [rewrite finf_neg in E by lra|rewrite finf_pos in E by lra]; discriminate. }
  split; [|split].
  - intros []; split; reflexivity.
  - intros a b Ha Hb Hn u v Hu Hv Hd.
    destruct (Req_EM_T 0 0) as [_|C]; [|lra].
    assert (Hinv : b = Fin 0 -> is_lim_seq (fun n => / v n) p_infty).
    { intros E. apply lim_inv_above; [subst; exact Hv|exact (Hd E)]. }
    assert (Hinv' : b <> Fin 0 -> is_lim_seq (fun n => / v n) (Rbar_inv (rb b))).
    { intros E. apply is_lim_seq_inv; [apply tends_rb, Hv|]. destruct b; cbn; congruence. }
    apply rb_tends; [exact Hn|]. apply tends_rb in Hu. unfold Rdiv.
    destruct a as [x| | |], b as [y| | |]; cbn [fdiv rb] in *; try congruence.
    + destruct (Req_EM_T y 0) as [->|Hy].
      * specialize (Hinv eq_refl).
        destruct (total_order_T x 0) as [[L|L]|L].
        -- rewrite finf_neg in Hn |- * by lra. eapply is_lim_seq_mult; [exact Hu|exact Hinv|].
           apply is_Rbar_mult_sym, is_Rbar_mult_p_infty_neg, L.
        -- subst. rewrite finf_0 in Hn. congruence.
        -- rewrite finf_pos in Hn |- * by lra. eapply is_lim_seq_mult; [exact Hu|exact Hinv|].
           apply is_Rbar_mult_sym, is_Rbar_mult_p_infty_pos, L.
      * eapply is_lim_seq_mult; [exact Hu|apply Hinv'; congruence|]. reflexivity.
    + eapply is_lim_seq_mult; [exact Hu|apply Hinv'; congruence|]. cbn. unfold is_Rbar_mult; cbn. do 2 f_equal. ring.
    + eapply is_lim_seq_mult; [exact Hu|apply Hinv'; congruence|]. cbn. unfold is_Rbar_mult; cbn. do 2 f_equal. ring.
    + destruct (Rlt_dec y 0) as [L|L].
      * eapply is_lim_seq_mult; [exact Hu|apply Hinv'; intros [= E]; lra|]. cbn.
        apply is_Rbar_mult_p_infty_neg. cbn. apply Rinv_lt_0_compat, L.
      * destruct (Req_EM_T y 0) as [->|Hy].
        -- eapply is_lim_seq_mult; [exact Hu|exact (Hinv eq_refl)|reflexivity].
        -- eapply is_lim_seq_mult; [exact Hu|apply Hinv'; congruence|]. cbn.
           apply is_Rbar_mult_p_infty_pos. cbn. apply Rinv_0_lt_compat. lra.
    + destruct (Rlt_dec y 0) as [L|L].
      * eapply is_lim_seq_mult; [exact Hu|apply Hinv'; intros [= E]; lra|]. cbn.
        apply is_Rbar_mult_m_infty_neg. cbn. apply Rinv_lt_0_compat, L.
      * destruct (Req_EM_T y 0) as [->|Hy].
        -- eapply is_lim_seq_mult; [exact Hu|exact (Hinv eq_refl)|reflexivity].
        -- eapply is_lim_seq_mult; [exact Hu|apply Hinv'; congruence|]. cbn.
           apply is_Rbar_mult_m_infty_pos. cbn. apply Rinv_0_lt_compat. lra.
  - intros a b Ha Hb Hn.
    destruct a as [x| | |], b as [y| | |]; cbn [fdiv] in *; try congruence.
    + destruct (Req_EM_T y 0) as [->|Hy]; [|congruence]. apply Z in Hn. subst.
      exists (fun _ => 0), (fun n => / up n), (fun n => / up n), (fun n => / up n), (Fin 0), (Fin 1).
      unfold above_zero; cbn.
      repeat match goal with |- _ /\ _ => split end; auto using lim_inv_up, is_lim_seq_const.
      * intros _ n. apply Rinv_0_lt_compat, up_pos.
      * intros _ n. apply Rinv_0_lt_compat, up_pos.
      * eapply is_lim_seq_ext; [|apply is_lim_seq_const]. intros n; cbn. unfold Rdiv. ring.
      * eapply is_lim_seq_ext; [|apply is_lim_seq_const]. intros n; cbn; field; apply up_neq.
      * intros [= E]; lra.
    + destruct (Rlt_dec y 0); discriminate.
    + exists up, up, (fun n => 2 * up n), up, (Fin 1), (Fin 2).
      unfold above_zero; cbn.
      repeat match goal with |- _ /\ _ => split end; auto using lim_up; try discriminate.
      * apply lim_scal; [apply lim_up|lra].
      * eapply is_lim_seq_ext; [|apply is_lim_seq_const]. intros n; cbn; field; apply up_neq.
      * eapply is_lim_seq_ext; [|apply is_lim_seq_const]. intros n; cbn; field; apply up_neq.
      * intros [= E]; lra.
    + exists up, (fun n => - up n), (fun n => 2 * up n), (fun n => - up n), (Fin (-1)), (Fin (-2)).
      unfold above_zero; cbn.
      repeat match goal with |- _ /\ _ => split end; auto using lim_up, lim_down; try discriminate.
      * apply lim_scal; [apply lim_up|lra].
      * eapply is_lim_seq_ext; [|apply is_lim_seq_const]. intros n; cbn; field; apply up_neq.
      * eapply is_lim_seq_ext; [|apply is_lim_seq_const]. intros n; cbn; field; apply up_neq.
      * intros [= E]; lra.
    + destruct (Rlt_dec y 0); discriminate.
    + exists (fun n => - up n), up, (fun n => - up n), (fun n => 2 * up n), (Fin (-1)), (Fin (- / 2)).
      unfold above_zero; cbn.
      repeat match goal with |- _ /\ _ => split end; auto using lim_up, lim_down; try discriminate.
      * apply lim_scal; [apply lim_up|lra].
      * eapply is_lim_seq_ext; [|apply is_lim_seq_const]. intros n; cbn; field; apply up_neq.
      * eapply is_lim_seq_ext; [|apply is_lim_seq_const]. intros n; cbn; field; apply up_neq.
      * intros [= E]; lra.
    + exists (fun n => - up n), (fun n => - up n), (fun n => - up n), (fun n => - (2 * up n)), (Fin 1), (Fin (/ 2)).
      unfold above_zero; cbn.
      repeat match goal with |- _ /\ _ => split end; auto using lim_up, lim_down; try discriminate.
      * apply (lim_opp _ p_infty), lim_scal; [apply lim_up|lra].
      * eapply is_lim_seq_ext; [|apply is_lim_seq_const]. intros n; cbn; field; apply up_neq.
      * eapply is_lim_seq_ext; [|apply is_lim_seq_const]. intros n; cbn; field; apply up_neq.
      * intros [= E]; lra.
Qed.
Print Assumptions C58_div_limit.

(** [a < b] when every pair of sequences for [a] and [b] is eventually in that order *)
Theorem C58_less_limit : forall a b,
  fltb a b = true <->
  a <> NaN /\ b <> NaN /\
  forall u v, tends u a -> tends v b -> exists N, forall n, (N <= n)%nat -> u n < v n.
Proof.
  intros a b.
  assert (C : forall x : R, is_lim_seq (fun _ => x) x) by (intros; apply is_lim_seq_const).
  split.
  - intros H. split; [|split]; try (intros ->; destruct a || idtac; cbn in H; congruence).
    intros u v Hu Hv.
    destruct a as [x| | |], b as [y| | |]; cbn in H, Hu, Hv; try congruence.
    + destruct (Rlt_dec x y) as [L|L]; [|congruence].
      apply is_lim_seq_spec in Hu, Hv. cbn in Hu, Hv.
      assert (P : 0 < (y - x) / 2) by lra.
      destruct (Hu (mkposreal _ P)) as [N1 H1]. destruct (Hv (mkposreal _ P)) as [N2 H2].
      exists (Nat.max N1 N2). intros n Hn.
      specialize (H1 n ltac:(lia)). specialize (H2 n ltac:(lia)). cbn in H1, H2.
      apply Rabs_def2 in H1, H2. lra.
    + apply is_lim_seq_spec in Hu, Hv. cbn in Hu, Hv.
      destruct (Hu (mkposreal _ Rlt_0_1)) as [N1 H1]. destruct (Hv (x + 1)) as [N2 H2].
      exists (Nat.max N1 N2). intros n Hn.
      specialize (H1 n ltac:(lia)). specialize (H2 n ltac:(lia)). cbn in H1.
      apply Rabs_def2 in H1. lra.
    + apply is_lim_seq_spec in Hu, Hv. cbn in Hu, Hv.
      destruct (Hv (mkposreal _ Rlt_0_1)) as [N1 H1]. destruct (Hu (y - 1)) as [N2 H2].
      exists (Nat.max N1 N2). intros n Hn.
      specialize (H1 n ltac:(lia)). specialize (H2 n ltac:(lia)). cbn in H1.
      apply Rabs_def2 in H1. lra.
    + apply is_lim_seq_spec in Hu, Hv. cbn in Hu, Hv.
      destruct (Hv 0) as [N1 H1]. destruct (Hu 0) as [N2 H2].
      exists (Nat.max N1 N2). intros n Hn.
      specialize (H1 n ltac:(lia)). specialize (H2 n ltac:(lia)). lra.
  - intros (Ha & Hb & H).
    destruct a as [x| | |], b as [y| | |]; cbn; try congruence.
    + destruct (H _ _ (C x) (C y)) as [N HN]. specialize (HN N ltac:(lia)). destruct (Rlt_dec x y); [reflexivity|lra].
    + (* x < NInf *)
      assert (E := H _ _ (C x) lim_down). destruct E as [N HN].
      destruct (INR_above (- x)) as [k Hk].
      specialize (HN (N + k)%nat ltac:(lia)). unfold up in HN. rewrite plus_INR in HN. pose proof (pos_INR N). lra.
    + destruct (H _ _ lim_up (C y)) as [N HN].
      destruct (INR_above y) as [k Hk].
      specialize (HN (N + k)%nat ltac:(lia)). unfold up in HN. rewrite plus_INR in HN. pose proof (pos_INR N). lra.
    + destruct (H _ _ lim_up lim_up) as [N HN]. specialize (HN N ltac:(lia)). lra.
    + destruct (H _ _ lim_up lim_down) as [N HN]. specialize (HN N ltac:(lia)). pose proof (up_pos N). lra.
    + destruct (H _ _ lim_down lim_down) as [N HN]. specialize (HN N ltac:(lia)). lra.
Qed.
Print Assumptions C58_less_limit.

(** log and sqrt: NaN exactly where no sequence of the real domain has that limit *)
Theorem C58_ln_limit : forall a,
  (forall u, tends u a -> (forall n, 0 < u n) -> tends (fun n => ln (u n)) (fln Fin a)) /\
  (fln Fin a = NaN <-> ~ exists u, tends u a /\ forall n, 0 < u n).
Proof.
  intros a. split.
  - intros u Hu Hp. destruct a as [r| | |]; cbn [fln tends] in *.
    + destruct (total_order_T r 0) as [[L|L]|L].
      * pose proof (is_lim_seq_le (fun _ => 0) u 0 r) as Q. cbn in Q.
        enough (0 <= r) by lra. apply Q; auto using is_lim_seq_const. intros; left; auto.
      * subst. cbn.
        assert (T : is_lim_seq (fun n => ln (/ u n)) p_infty).
        { eapply filterlim_comp; [apply lim_inv_above; eauto|]. exact is_lim_ln_p. }
        apply lim_opp in T. eapply is_lim_seq_ext; [|exact T]. intros n. cbn.
        rewrite ln_Rinv by apply Hp. ring.
      * cbn. apply (is_lim_seq_continuous ln u r); [|exact Hu].
        apply derivable_continuous_pt. exists (/ r). apply derivable_pt_lim_ln. exact L.
    + eapply filterlim_comp; [exact Hu|exact is_lim_ln_p].
    + apply is_lim_seq_spec in Hu. destruct (Hu 0) as [N HN]. specialize (HN N ltac:(lia)).
      specialize (Hp N). lra.
    + exact Hu.
  - split.
    + intros E (u & Hu & Hp). destruct a as [r| | |]; cbn [fln tends] in *; try congruence; try tauto.
      * destruct (total_order_T r 0) as [[L|L]|L]; try discriminate.
        pose proof (is_lim_seq_le (fun _ => 0) u 0 r) as Q. cbn in Q.
        enough (0 <= r) by lra. apply Q; auto using is_lim_seq_const. intros; left; auto.
      * apply is_lim_seq_spec in Hu. destruct (Hu 0) as [N HN]. specialize (HN N ltac:(lia)).
        specialize (Hp N). lra.
    + intros H. destruct a as [r| | |]; cbn [fln]; try reflexivity.
      * destruct (total_order_T r 0) as [[L|L]|L]; [reflexivity| |].
        -- subst. exfalso. apply H. exists (fun n => / up n). split; [apply lim_inv_up|].
           intros; apply Rinv_0_lt_compat, up_pos.
        -- exfalso. apply H. exists (fun _ => r). split; [apply is_lim_seq_const|]. intros; lra.
      * exfalso. apply H. exists up. split; [apply lim_up|apply up_pos].
Qed.
Print Assumptions C58_ln_limit.

Theorem C58_sqrt_limit : forall a,
  (forall u, tends u a -> (forall n, 0 <= u n) -> tends (fun n => sqrt (u n)) (fsqrt Fin a)) /\
  (fsqrt Fin a = NaN <-> ~ exists u, tends u a /\ forall n, 0 <= u n).
Proof.
  intros a. split.
  - intros u Hu Hp. destruct a as [r| | |]; cbn [fsqrt tends] in *.
    + destruct (Rlt_dec r 0) as [L|L].
      * pose proof (is_lim_seq_le (fun _ => 0) u 0 r) as Q. cbn in Q.
        enough (0 <= r) by lra. apply Q; auto using is_lim_seq_const.
      * cbn. apply (is_lim_seq_continuous sqrt u r); [|exact Hu].
        apply continuity_pt_filterlim, continuous_sqrt.
    + eapply filterlim_comp; [exact Hu|exact filterlim_sqrt_p].
    + apply is_lim_seq_spec in Hu. destruct (Hu 0) as [N HN]. specialize (HN N ltac:(lia)).
      specialize (Hp N). lra.
    + exact Hu.
  - split.
    + intros E (u & Hu & Hp). destruct a as [r| | |]; cbn [fsqrt tends] in *; try congruence; try tauto.
      * destruct (Rlt_dec r 0) as [L|L]; try discriminate.
        pose proof (is_lim_seq_le (fun _ => 0) u 0 r) as Q. cbn in Q.
        enough (0 <= r) by lra. apply Q; auto using is_lim_seq_const.
      * apply is_lim_seq_spec in Hu. destruct (Hu 0) as [N HN]. specialize (HN N ltac:(lia)).
        specialize (Hp N). lra.
    + intros H. destruct a as [r| | |]; cbn [fsqrt]; try reflexivity.
      * destruct (Rlt_dec r 0) as [L|L]; [reflexivity|].
        exfalso. apply H. exists (fun _ => r). split; [apply is_lim_seq_const|]. intros; lra.
      * exfalso. apply H. exists up. split; [apply lim_up|]. intros; left; apply up_pos.
Qed.
Print Assumptions C58_sqrt_limit.

(** the rounding is applied once, to the result on numbers, and nowhere else;
    infinities that come out of numbers are the rounding's or a division by zero *)
Theorem C58_rounding : forall (rnd : R -> float),
  (forall x y, fadd rnd (Fin x) (Fin y) = rnd (x + y)) /\
  (forall x y, fsub rnd (Fin x) (Fin y) = rnd (x - y)) /\
  (forall x y, fmul rnd (Fin x) (Fin y) = rnd (x * y)) /\
  (forall x y, y <> 0 -> fdiv rnd (Fin x) (Fin y) = rnd (x / y)) /\
  (forall x, 0 < x -> fln rnd (Fin x) = rnd (ln x)) /\
  (forall x, 0 <= x -> fsqrt rnd (Fin x) = rnd (sqrt x)) /\
  (forall x, flit rnd x = rnd x) /\
  (forall a b, ~ (exists x y, a = Fin x /\ b = Fin y) ->
     fadd rnd a b = fadd Fin a b /\ fsub rnd a b = fsub Fin a b /\
     fmul rnd a b = fmul Fin a b /\ fdiv rnd a b = fdiv Fin a b) /\
  (forall a, fdiv rnd a (Fin 0) = fdiv Fin a (Fin 0)).
Proof.
  intros rnd.
  repeat match goal with |- _ /\ _ => split end; try (intros; reflexivity).
  - intros x y Hy. cbn. destruct (Req_EM_T y 0); [contradiction|reflexivity].
  - intros x H. cbn. destruct (total_order_T x 0) as [[?|?]|?]; try lra; reflexivity.
  - intros x H. cbn. destruct (Rlt_dec x 0); [lra|reflexivity].
  - intros a b H. destruct a, b; try (exfalso; apply H; eauto; fail); repeat split; reflexivity.
  - intros a. destruct a; cbn; try reflexivity. destruct (Req_EM_T 0 0); [reflexivity|lra].
Qed.
Print Assumptions C58_rounding.

Example C58_limit_case :
  fadd Fin PInf (Fin 3) = PInf /\ fsub Fin PInf PInf = NaN /\ fmul Fin (Fin (-2)) PInf = NInf /\
  fmul Fin (Fin 0) NInf = NaN /\ fdiv Fin (Fin (-1)) (Fin 0) = NInf /\ fdiv Fin (Fin 1) PInf = Fin 0 /\
  fln Fin (Fin 0) = NInf /\ fsqrt Fin (Fin (-1)) = NaN /\ fltb NInf (Fin 0) = true /\ fltb NaN NaN = false.
Proof.
  cbn. rewrite finf_0.
  rewrite finf_neg by lra. 
  destruct (Req_EM_T 0 0); [|lra]. rewrite finf_neg by lra.
  destruct (total_order_T 0 0) as [[?|?]|?]; try lra.
  destruct (Rlt_dec (-1) 0); [|lra].
  repeat split.
Qed.
