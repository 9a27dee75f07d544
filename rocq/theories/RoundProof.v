(** Rounding errors of one MYULA step (C62). *)
From Coq Require Import List ZArith Lia Bool Reals Lra Psatz String.
From Coquelicot Require Import Coquelicot.
From Verif Require Import PyBase PyBaseFacts CVec OpSpec Sampler StableProof SkDivProof MomentProof Ieee IeeeProof.
Import ListNotations.
Notation length := List.length.
Open Scope R_scope.

(** ** Vocabulary *)

(** numbers up to M are rounded with an error of at most eps, without overflow *)
Definition accurate (rnd : R -> float) (M eps : R) : Prop :=
  0 <= eps /\ forall x, Rabs x <= M -> exists y, rnd x = Fin y /\ Rabs (y - x) <= eps.
(** the numbers in the step of size d: entries of up to A in absolute value *)
Definition room (d l A : R) : R := (1 + A) * (7 + 2 * (d / l) + 4 * d).
Definition step_error (eps d A : R) : R := eps * (7 + A * (4 + / sqrt (2 * d))).
Definition within (A : R) (x : list R) : Prop := List.Forall (fun z => Rabs z <= A) x.
(** entry by entry *)
Definition close (e : R) (a b : vec) : Prop := List.Forall2 (fun u v : C => Cmod (u - v)%C <= e) a b.

(** ** One entry *)

Lemma mul_near : forall c c0 e x A, Rabs (c - c0) <= e -> Rabs x <= A -> Rabs (c * x - c0 * x) <= e * A.
Proof.
  intros c c0 e x A H1 H2. replace (c * x - c0 * x) with ((c - c0) * x) by ring. rewrite Rabs_mult.
  apply Rmult_le_compat; auto using Rabs_pos.
Qed.
Lemma mul_bound : forall c x B A, Rabs c <= B -> Rabs x <= A -> Rabs (c * x) <= B * A.
Proof. intros. rewrite Rabs_mult. apply Rmult_le_compat; auto using Rabs_pos. Qed.
Lemma bounds : forall x b, Rabs x <= b -> - b <= x <= b.
Proof. intros x b H. apply Rabs_le_between; auto. Qed.

Section Entry.
Variables (rnd : R -> float) (M eps d l A : R).
Hypothesis AC : accurate rnd M eps.
Hypothesis E1 : eps <= 1.
Hypothesis Ed : eps <= d.
Hypothesis Hd : 0 < d.
Hypothesis Hl : 0 < l.
Hypothesis HA : 0 <= A.
Hypothesis HM : room d l A <= M.

Lemma eps_nonneg : 0 <= eps. Proof. apply AC. Qed.
Lemma ratio_pos : 0 < d / l. Proof. apply Rdiv_lt_0_compat; auto. Qed.
Lemma room_ge : (1 + A) * (7 + 2 * (d / l) + 4 * d) <= M. Proof. exact HM. Qed.
Lemma room_scalar : 7 + 2 * (d / l) + 4 * d <= M.
Proof. assert (H := room_ge). assert (P := ratio_pos). nra. Qed.

Lemma scalars : exists r c s, py_fdiv rnd (Fin d) (Fin l) = Ok (Fin r) /\ fsub rnd (Fin 1) (Fin r) = Fin c /\
  fsqrt rnd (fmul rnd (Fin 2) (Fin d)) = Fin s /\
  Rabs (r - d / l) <= eps /\ Rabs (c - (1 - d / l)) <= 2 * eps /\ Rabs (s - sqrt (2 * d)) <= eps * (1 + / sqrt (2 * d)).
Proof.
  assert (E0 := eps_nonneg). assert (P := ratio_pos). assert (RS := room_scalar). destruct AC as (_ & ACC).
  destruct (ACC (d / l)) as (r & Er & Br); [rewrite Rabs_pos_eq; lra|]. apply bounds in Br.
  destruct (ACC (1 + - r)) as (c & Ec & Bc); [apply Rabs_le; lra|]. apply bounds in Bc.
  destruct (ACC (2 * d)) as (t & Et & Bt); [rewrite Rabs_pos_eq; lra|]. assert (Bt' := Bt). apply bounds in Bt.
  assert (T0 : 0 < t) by lra. assert (S0 : 0 < sqrt (2 * d)) by (apply sqrt_lt_R0; lra). assert (S1 : 0 < sqrt t) by (apply sqrt_lt_R0; lra).
  assert (SB : sqrt t <= 1 + t).
  { apply Rsqr_incr_0; try lra. rewrite Rsqr_sqrt by lra. unfold Rsqr. nra. }
  destruct (ACC (sqrt t)) as (s & Es & Bs); [rewrite Rabs_pos_eq; lra|].
  exists r, c, s. split; [unfold py_fdiv, fdiv; destruct (Req_EM_T l 0); [lra|]; rewrite Er; reflexivity|].
  split; [unfold fsub, fneg, fadd; exact Ec|].
  split; [unfold fmul; rewrite Et; unfold fsqrt; destruct (Rlt_dec t 0); [lra|exact Es]|].
  split; [apply Rabs_le; lra|]. split; [apply Rabs_le; lra|].
  assert (D : Rabs (sqrt t - sqrt (2 * d)) <= eps * / sqrt (2 * d)).
  { replace (sqrt t - sqrt (2 * d)) with ((t - 2 * d) * / (sqrt t + sqrt (2 * d))).
    - rewrite Rabs_mult. apply Rmult_le_compat; auto using Rabs_pos. rewrite Rabs_pos_eq; [|left; apply Rinv_0_lt_compat; lra].
      apply Rinv_le_contravar; lra.
    - apply (Rmult_eq_reg_r (sqrt t + sqrt (2 * d))); [|lra]. rewrite Rmult_assoc, Rinv_l by lra.
      replace ((sqrt t - sqrt (2 * d)) * (sqrt t + sqrt (2 * d))) with (sqrt t * sqrt t - sqrt (2 * d) * sqrt (2 * d)) by ring.
      rewrite !sqrt_sqrt by lra. ring. }
  replace (s - sqrt (2 * d)) with ((s - sqrt t) + (sqrt t - sqrt (2 * d))) by ring.
  eapply Rle_trans; [apply Rabs_triang|]. lra.
Qed.

Lemma root_bound : sqrt (2 * d) <= 1 + 2 * d.
Proof. assert (S0 : 0 < sqrt (2 * d)) by (apply sqrt_lt_R0; lra). apply Rsqr_incr_0; try lra. rewrite Rsqr_sqrt by lra. unfold Rsqr. nra. Qed.
Lemma root_error : eps * (1 + / sqrt (2 * d)) <= 2 + d.
Proof.
  assert (E0 := eps_nonneg). assert (S0 : 0 < sqrt (2 * d)) by (apply sqrt_lt_R0; lra).
  assert (Q : eps * / sqrt (2 * d) <= 1 + d).
  { apply (Rmult_le_reg_r (sqrt (2 * d))); [auto|]. rewrite Rmult_assoc, Rinv_l, Rmult_1_r by lra.
    assert (SS : sqrt (2 * d) * sqrt (2 * d) = 2 * d) by (apply sqrt_sqrt; lra). set (v := sqrt (2 * d)) in *. clearbody v.
    destruct (Rle_dec 1 v); [nra|]. nra. }
  lra.
Qed.

Lemma entry_near : forall r c s x p g w,
  Rabs (r - d / l) <= eps -> Rabs (c - (1 - d / l)) <= 2 * eps -> Rabs (s - sqrt (2 * d)) <= eps * (1 + / sqrt (2 * d)) ->
  Rabs x <= A -> Rabs p <= A -> Rabs g <= A -> Rabs w <= A ->
  exists y, fadd rnd (fsub rnd (fadd rnd (fmul rnd (Fin c) (Fin x)) (fmul rnd (Fin r) (Fin p))) (fmul rnd (Fin d) (Fin g))) (fmul rnd (Fin s) (Fin w)) = Fin y /\
    Rabs (y - ((1 - d / l) * x + d / l * p - d * g + sqrt (2 * d) * w)) <= step_error eps d A.
Proof.
  intros r c s x p g w Br Bc Bs Bx Bp Bg Bw.
  assert (E0 := eps_nonneg). assert (P := ratio_pos). assert (RG := room_ge). assert (RB := root_bound). assert (RE := root_error).
  destruct AC as (_ & ACC). assert (S0 : 0 < sqrt (2 * d)) by (apply sqrt_lt_R0; lra).
  assert (N1 := mul_near _ _ _ _ _ Bc Bx). assert (N2 := mul_near _ _ _ _ _ Br Bp). assert (N3 := mul_near _ _ _ _ _ Bs Bw).
  unfold step_error. set (k := / sqrt (2 * d)) in *. set (q := d / l) in *. set (v := sqrt (2 * d)) in *. set (es := eps * (1 + k)) in *.
  assert (Bc' : Rabs c <= 3 + q) by (apply bounds in Bc; apply Rabs_le; lra).
  assert (Br' : Rabs r <= 1 + q) by (apply bounds in Br; apply Rabs_le; lra).
  assert (Bs' : Rabs s <= 3 + 3 * d) by (apply bounds in Bs; apply Rabs_le; lra).
  assert (Bd' : Rabs d <= d) by (rewrite Rabs_pos_eq; lra).
  assert (M1 := mul_bound _ _ _ _ Bc' Bx). assert (M2 := mul_bound _ _ _ _ Br' Bp). assert (M3 := mul_bound _ _ _ _ Bs' Bw). assert (M4 := mul_bound _ _ _ _ Bd' Bg).
  assert (QA : 0 <= q * A) by (apply Rmult_le_pos; lra). assert (DA : 0 <= d * A) by (apply Rmult_le_pos; lra).
  replace ((1 + A) * (7 + 2 * q + 4 * d)) with (7 + 2 * q + 4 * d + 7 * A + 2 * (q * A) + 4 * (d * A)) in RG by ring.
  replace ((3 + q) * A) with (3 * A + q * A) in M1 by ring. replace ((1 + q) * A) with (A + q * A) in M2 by ring.
  replace ((3 + 3 * d) * A) with (3 * A + 3 * (d * A)) in M3 by ring.
  destruct (ACC (c * x)) as (a1 & F1 & B1); [lra|]. destruct (ACC (r * p)) as (a2 & F2 & B2); [lra|].
  destruct (ACC (d * g)) as (a4 & F4 & B4); [lra|]. destruct (ACC (s * w)) as (a6 & F6 & B6); [lra|].
  apply bounds in B1, B2, B4, B6, M1, M2, M3, M4, N1, N2, N3.
  destruct (ACC (a1 + a2)) as (a3 & F3 & B3); [apply Rabs_le; lra|]. apply bounds in B3.
  destruct (ACC (a3 + - a4)) as (a5 & F5 & B5); [apply Rabs_le; lra|]. apply bounds in B5.
  destruct (ACC (a5 + a6)) as (y & Fy & By); [apply Rabs_le; lra|]. apply bounds in By.
  exists y. split.
  - cbn [fmul]. rewrite F1, F2, F4, F6. cbn [fadd]. rewrite F3. cbn [fsub fneg fadd]. rewrite F5. cbn [fadd]. exact Fy.
  - replace (eps * (7 + A * (4 + k))) with (7 * eps + 2 * eps * A + eps * A + es * A) by (unfold es; ring).
    apply Rabs_le. lra.
Qed.

(** ** One step *)

Definition zipf (op : float -> float -> float) (a b : fvec) : fvec := map (fun p => op (fst p) (snd p)) (combine a b).
Lemma fzip_zipf : forall op a b, length a = length b -> fzip op a b = Ok (zipf op a b).
Proof. intros op a b L. unfold fzip. rewrite L, Nat.eqb_refl. reflexivity. Qed.
Lemma zipf_length : forall op a b, length a = length b -> length (zipf op a b) = length a.
Proof. intros op a b L. unfold zipf. rewrite map_length, combine_length. lia. Qed.

Lemma entry_close : forall kappa y x p g w (p' g' : C), 0 <= kappa ->
  Rabs (y - ((1 - d / l) * x + d / l * p - d * g + sqrt (2 * d) * w)) <= step_error eps d A ->
  Cmod (RtoC p - p')%C <= kappa -> Cmod (RtoC g - g')%C <= kappa ->
  Cmod (RtoC y - (RtoC x + RtoC d * (RtoC (- / l) * (RtoC x - p') - g') + RtoC (sqrt (2 * d)) * RtoC w))%C <=
  step_error eps d A + (d / l + d) * kappa.
Proof.
  intros kappa y x p g w p' g' Hk Hy Hp Hg. assert (P := ratio_pos).
  set (u := y - ((1 - d / l) * x + d / l * p - d * g + sqrt (2 * d) * w)) in *.
  replace (RtoC y - (RtoC x + RtoC d * (RtoC (- / l) * (RtoC x - p') - g') + RtoC (sqrt (2 * d)) * RtoC w))%C with
    (RtoC u + (RtoC (d / l) * (RtoC p - p') + RtoC (- d) * (RtoC g - g')))%C.
  2:{ unfold u, Rdiv. destruct p' as (a & b), g' as (a' & b'). apply C_ext; cbn; ring. }
  eapply Rle_trans; [apply Cmod_triangle|]. rewrite Cmod_R.
  eapply Rle_trans; [apply Rplus_le_compat; [exact Hy|apply Cmod_triangle]|]. rewrite !Cmod_mult, !Cmod_R, Rabs_Ropp, !Rabs_pos_eq by lra.
  assert (d / l * Cmod (RtoC p - p')%C <= d / l * kappa) by (apply Rmult_le_compat_l; lra).
  assert (d * Cmod (RtoC g - g')%C <= d * kappa) by (apply Rmult_le_compat_l; lra). lra.
Qed.

Lemma step_close : forall G (randn : nat -> G -> list R * G) ff kappa x p g (p' g' : vec) s w s', 0 <= kappa ->
  randn (fp_nparams ff) s = (w, s') -> length p = length x -> length g = length x -> length w = length x ->
  within A x -> within A p -> within A g -> within A w -> close kappa (map RtoC p) p' -> close kappa (map RtoC g) g' ->
  exists y, f_step rnd randn ff (Fin l) (Fin d) (map Fin x) (map Fin p) (map Fin g) s = (Ok (map Fin y), s') /\ length y = length x /\
    close (step_error eps d A + (d / l + d) * kappa) (map RtoC y)
      (vadd (vadd (map RtoC x) (vscal (RtoC d) (vsub (vscal (RtoC (- / l)) (vsub (map RtoC x) p')) g'))) (vscal (RtoC (sqrt (2 * d))) (map RtoC w))).
Proof.
  intros G randn ff kappa x p g p' g' s w s' Hk ER Lp Lg Lw Wx Wp Wg Ww Cp Cg.
  destruct scalars as (r & c & t & F1 & F2 & F3 & B1 & B2 & B3).
  unfold f_step. rewrite ER, F1. cbn [rbind]. rewrite F2, F3.
  assert (FL : forall z a, length (fscal rnd z (map Fin a)) = length a) by (intros; unfold fscal; rewrite !map_length; reflexivity).
  rewrite fzip_zipf by (rewrite !FL; congruence). cbn [rbind].
  rewrite fzip_zipf by (rewrite zipf_length by (rewrite !FL; congruence); rewrite !FL; congruence). cbn [rbind].
  rewrite fzip_zipf by (rewrite !zipf_length; rewrite ?zipf_length, ?FL; try congruence; rewrite ?FL; congruence).
  enough (Q : exists y, zipf (fadd rnd) (zipf (fsub rnd) (zipf (fadd rnd) (fscal rnd (Fin c) (map Fin x)) (fscal rnd (Fin r) (map Fin p))) (fscal rnd (Fin d) (map Fin g)))
      (fscal rnd (Fin t) (map Fin w)) = map Fin y /\ length y = length x /\
    close (step_error eps d A + (d / l + d) * kappa) (map RtoC y)
      (vadd (vadd (map RtoC x) (vscal (RtoC d) (vsub (vscal (RtoC (- / l)) (vsub (map RtoC x) p')) g'))) (vscal (RtoC (sqrt (2 * d))) (map RtoC w)))).
  { destruct Q as (y & -> & Q1 & Q2). exists y. auto. }
  clear ER. unfold within, close in *. revert p g w p' g' Lp Lg Lw Wp Wg Ww Cp Cg.
  induction Wx as [|x0 x Hx Wx IH]; intros [|p0 p] [|g0 g] [|w0 w] p' g' Lp Lg Lw Wp Wg Ww Cp Cg; cbn in Lp, Lg, Lw; try lia.
  - exists []. split; [reflexivity|]. split; [reflexivity|]. cbn. constructor.
  - inversion Wp; subst. inversion Wg; subst. inversion Ww; subst. cbn [map] in Cp, Cg. inversion Cp; subst. inversion Cg; subst.
    destruct (IH p g w l' l'0) as (yy & Q1 & Q2 & Q3); auto.
    destruct (entry_near r c t x0 p0 g0 w0) as (yy0 & Y1 & Y2); auto.
    exists (yy0 :: yy). split; [|split; [cbn; lia|]].
    + unfold zipf, fscal in *. cbn [map combine fst snd]. rewrite Y1. f_equal. exact Q1.
    + cbn [map]. unfold vadd, vsub, vscal in *. cbn [map map2]. constructor; [|exact Q3]. eapply entry_close; eauto.
Qed.
End Entry.

Lemma close_length : forall e a b, close e a b -> length a = length b.
Proof. intros e a b H. induction H; cbn; congruence. Qed.
Lemma close_nm : forall e a b, 0 <= e -> close e a b -> nm (vsub a b) <= sqrt (INR (length a)) * e.
Proof.
  intros e a b He H. unfold nm. rewrite <- (sqrt_Rsqr e) by auto. rewrite <- sqrt_mult by (try apply pos_INR; apply Rle_0_sqr).
  apply sqrt_le_1_alt. induction H as [|u v a b H F IH]; [cbn; lra|]. unfold vsub in *. cbn [map2 length].
  change (Cmod (u - v)%C ^ 2 + nrm2 (map2 Cminus a b) <= INR (S (length a)) * Rsqr e). rewrite S_INR.
  assert (N := Cmod_ge_0 (u - v)%C). assert (Cmod (u - v)%C ^ 2 <= Rsqr e) by (unfold Rsqr; nra). lra.
Qed.
Lemma nm_entry : forall a z, In z a -> Cmod z <= nm a.
Proof.
  intros a z. unfold nm. induction a as [|u a IH]; intros []; [subst u|].
  - rewrite <- (sqrt_Rsqr (Cmod z)) by apply Cmod_ge_0. apply sqrt_le_1_alt. change (nrm2 (z :: a)) with (Cmod z ^ 2 + nrm2 a).
    assert (0 <= nrm2 a) by apply nrm2_nonneg. unfold Rsqr. lra.
  - eapply Rle_trans; [apply IH; auto|]. apply sqrt_le_1_alt. change (nrm2 (u :: a)) with (Cmod u ^ 2 + nrm2 a).
    assert (0 <= Cmod u ^ 2) by apply pow2_ge_0. lra.
Qed.
Lemma nm_within : forall A x, nm (map RtoC x) <= A -> within A x.
Proof.
  intros A x H. apply Forall_forall. intros z Hz. rewrite <- Cmod_R. eapply Rle_trans; [|exact H]. apply nm_entry. apply in_map. auto.
Qed.
Lemma nm_noise : forall W w, 0 <= W -> within W w -> nm (map RtoC w) <= sqrt (INR (length w)) * W.
Proof.
  intros W w HW H. unfold nm. rewrite <- (sqrt_Rsqr W) by auto. rewrite <- sqrt_mult by (try apply pos_INR; apply Rle_0_sqr).
  apply sqrt_le_1_alt. induction H as [|z w Hz F IH]; [cbn; lra|]. cbn [map length].
  change (Cmod (RtoC z) ^ 2 + nrm2 (map RtoC w) <= INR (S (length w)) * Rsqr W). rewrite S_INR, Cmod_R.
  assert (N := Rabs_pos z). assert (Rabs z ^ 2 <= Rsqr W) by (unfold Rsqr; nra). lra.
Qed.
