(** Lemmas for C60: means and expectations, one step of the chain under a
    random tape, the second moment of the iterates. *)
From Coq Require Import List ZArith Lia Bool Reals Lra Psatz.
From Coquelicot Require Import Coquelicot.
From Verif Require Import PyBase CVec OpSpec Prior Forward McmcSpec FwdProof Sampler SamplerSpec Mcmc StepProof
  P_Samplers P_Mcmc StableProof P_Stable MomentSpec.
Import ListNotations.
Notation length := List.length.
Open Scope R_scope.

(** ** means *)

Lemma mean_ext : forall S h h', (forall pw, In pw S -> h (snd pw) = h' (snd pw)) -> mean S h = mean S h'.
Proof. intros S h h' H. unfold mean. apply rsum_map_ext. intros pw Hp. rewrite H; auto. Qed.
Lemma mean_le : forall S h h', (forall pw, In pw S -> 0 <= fst pw) -> (forall pw, In pw S -> h (snd pw) <= h' (snd pw)) ->
  mean S h <= mean S h'.
Proof. intros S h h' P H. unfold mean. apply rsum_map_le. intros pw Hp. apply Rmult_le_compat_l; auto. Qed.
Lemma mean_plus : forall S h h', mean S (fun w => h w + h' w) = mean S h + mean S h'.
Proof. intros. unfold mean. rewrite <- rsum_map_plus. apply rsum_map_ext. intros; ring. Qed.
Lemma mean_scal : forall S c h, mean S (fun w => c * h w) = c * mean S h.
Proof. intros. unfold mean. rewrite <- rsum_map_scal. apply rsum_map_ext. intros; ring. Qed.
Lemma mean_const : forall S c, mean S (fun _ => 1) = 1 -> mean S (fun _ => c) = c.
Proof.
  intros S c H. transitivity (mean S (fun _ => c * 1)); [apply mean_ext; intros; ring|].
  rewrite mean_scal, H. ring.
Qed.
Lemma mean_nth : forall S n v, white S n v -> forall al, length al = n -> mean S (fun w => rsum (map2 Rmult al w)) = 0.
Proof.
  intros S n v (L & _ & M & _). 
  assert (H : forall k al, (k + length al = n)%nat -> mean S (fun w => rsum (map2 Rmult al (skipn k w))) = 0).
  { intros k al. revert k. induction al as [|a al IH]; intros k E.
    - transitivity (mean S (fun _ => 0 * 0)); [apply mean_ext; intros; cbn; ring|]. rewrite mean_scal; ring.
    - cbn in E. transitivity (mean S (fun w => a * nth k w 0 + rsum (map2 Rmult al (skipn (Datatypes.S k) w)))).
      + apply mean_ext. intros (p & w) Hp. cbn. destruct (L _ Hp) as (_ & Lw). cbn in Lw.
        assert (F : skipn k w = nth k w 0 :: skipn (Datatypes.S k) w).
        { clear - Lw E. assert (HK : (k < length w)%nat) by lia. clear - HK. revert k HK.
          induction w as [|x w IH]; intros k HK; cbn in HK; [lia|]. destruct k; [reflexivity|]. cbn [skipn nth]. apply IH. lia. }
        rewrite F. reflexivity.
      + rewrite mean_plus, mean_scal, IH by lia. rewrite M by lia. ring. }
  intros al E. exact (H 0%nat al E).
Qed.

(** ** expectations *)

Definition tape_of (n k : nat) (l : list (list R)) : Prop := length l = k /\ forall w, In w l -> length w = n.

Lemma expect_ext : forall S n k h h', (forall pw, In pw S -> length (snd pw) = n) ->
  (forall l, tape_of n k l -> h l = h' l) -> expect S k h = expect S k h'.
Proof.
  intros S n k h h' L. revert h h'. induction k as [|k IH]; intros h h' H; cbn.
  - apply H. split; [reflexivity|intros w []].
  - apply mean_ext. intros pw Hp. apply IH. intros l (T1 & T2). apply H. split; [cbn; lia|].
    intros w [<-|Hw]; auto.
Qed.
Lemma expect_le : forall S n k h h', (forall pw, In pw S -> 0 <= fst pw /\ length (snd pw) = n) ->
  (forall l, tape_of n k l -> h l <= h' l) -> expect S k h <= expect S k h'.
Proof.
  intros S n k h h' L. revert h h'. induction k as [|k IH]; intros h h' H; cbn.
  - apply H. split; [reflexivity|intros w []].
  - apply mean_le; [intros; apply L; auto|]. intros pw Hp. apply IH. intros l (T1 & T2). apply H. split; [cbn; lia|].
    intros w [<-|Hw]; auto. apply L; auto.
Qed.
Lemma expect_const : forall S k c, mean S (fun _ => 1) = 1 -> expect S k (fun _ => c) = c.
Proof.
  intros S k c H. induction k as [|k IH]; cbn; [reflexivity|]. rewrite (mean_ext _ _ (fun _ => c)) by (intros; apply IH).
  apply mean_const, H.
Qed.
Lemma expect_plus : forall S k h h', expect S k (fun l => h l + h' l) = expect S k h + expect S k h'.
Proof.
  intros S k. induction k as [|k IH]; intros; cbn; [reflexivity|]. rewrite <- mean_plus. apply mean_ext. intros; apply IH.
Qed.
Lemma expect_scal : forall S k c h, expect S k (fun l => c * h l) = c * expect S k h.
Proof.
  intros S k c. induction k as [|k IH]; intros; cbn; [reflexivity|]. rewrite <- mean_scal. apply mean_ext. intros; apply IH.
Qed.
Lemma expect_app : forall S a b h, expect S (a + b) h = expect S a (fun l => expect S b (fun l' => h (l ++ l'))).
Proof.
  intros S a b. induction a as [|a IH]; intros h; cbn; [reflexivity|]. apply mean_ext. intros pw _. apply IH.
Qed.

(** ** the noise of one step *)

Definition noise_of (c : bool) (l : list (list R)) : vec :=
  if c then map2 (fun x y => (x, y)) (nth 0 l []) (nth 1 l []) else map RtoC (nth 0 l []).

Lemma noise_tape : forall R0 c n l l', reads_tape R0 n -> tape_of n (per_step c) l ->
  noise R0 c n (l ++ l') = (noise_of c l, l') /\ length (noise_of c l) = n.
Proof.
  intros R0 c n l l' RT (L & T). unfold noise, noise_of. destruct c; cbn in L.
  - destruct l as [|a [|b [|]]]; try discriminate. cbn [app nth].
    rewrite RT by (apply T; cbn; auto). cbn [fst snd]. rewrite RT by (apply T; cbn; auto). cbn [fst snd]. split; [reflexivity|].
    rewrite map2_length; [apply T; cbn; auto|]. rewrite (T a), (T b); cbn; auto.
  - destruct l as [|a [|]]; try discriminate. cbn [app nth].
    rewrite RT by (apply T; cbn; auto). cbn [fst snd]. split; [reflexivity|]. rewrite map_length. apply T; cbn; auto.
Qed.

Lemma nrm2_cons : forall z (x : vec), nrm2 (z :: x) = fst z ^ 2 + snd z ^ 2 + nrm2 x.
Proof. intros. change (nrm2 (z :: x)) with (Cmod z ^ 2 + nrm2 x). rewrite Cmod_sq. ring. Qed.
Lemma nrm2_nil : nrm2 [] = 0. Proof. reflexivity. Qed.

Lemma nrm2_real_noise : forall c A w, length A = length w ->
  nrm2 (vadd A (vscal (RtoC c) (map RtoC w))) =
  nrm2 A + 2 * c * rsum (map2 Rmult (map fst A) w) + c ^ 2 * rsum (map (fun x => x ^ 2) w).
Proof.
  intros c. unfold vadd, vscal. induction A as [|a A IH]; intros [|x w] L; cbn in L; try lia.
  - cbn. unfold nrm2; cbn. ring.
  - cbn [map map2]. rewrite !nrm2_cons. cbn [rsum fold_right]. fold (rsum (map2 Rmult (map fst A) w)).
    fold (rsum (map (fun x => x ^ 2) w)). rewrite IH by lia. destruct a; unfold Cplus, Cmult, RtoC; cbn [fst snd]. ring.
Qed.
Lemma nrm2_complex_noise : forall c A w w', length A = length w -> length A = length w' ->
  nrm2 (vadd A (vscal (RtoC c) (map2 (fun x y => (x, y)) w w'))) =
  nrm2 A + 2 * c * rsum (map2 Rmult (map fst A) w) + c ^ 2 * rsum (map (fun x => x ^ 2) w)
  + (2 * c * rsum (map2 Rmult (map snd A) w') + c ^ 2 * rsum (map (fun x => x ^ 2) w')).
Proof.
  intros c. unfold vadd, vscal. induction A as [|a A IH]; intros [|x w] [|y w'] L L'; cbn in L, L'; try lia.
  - cbn. unfold nrm2; cbn. ring.
  - cbn [map map2]. rewrite !nrm2_cons. cbn [rsum fold_right]. fold (rsum (map2 Rmult (map fst A) w)).
    fold (rsum (map2 Rmult (map snd A) w')).
    fold (rsum (map (fun x => x ^ 2) w)). fold (rsum (map (fun x => x ^ 2) w')). rewrite (IH w w') by lia.
    destruct a; unfold Cplus, Cmult, RtoC; cbn [fst snd]. ring.
Qed.

(** the noise adds its variance *)
Lemma noise_second : forall S n v b c A, white S n v -> length A = n ->
  expect S (per_step b) (fun l => nrm2 (vadd A (vscal (RtoC c) (noise_of b l)))) =
  nrm2 A + c ^ 2 * (v * INR n * INR (per_step b)).
Proof.
  intros S n v b c A W LA. assert (W' := W). destruct W' as (L & M1 & _ & M2).
  assert (Ls : forall pw, In pw S -> length (snd pw) = n) by (intros; apply L; auto).
  destruct b; cbn [per_step].
  - transitivity (expect S 2 (fun l => nrm2 A + 2 * c * rsum (map2 Rmult (map fst A) (nth 0 l [])) + c ^ 2 * rsum (map (fun x => x ^ 2) (nth 0 l []))
      + (2 * c * rsum (map2 Rmult (map snd A) (nth 1 l [])) + c ^ 2 * rsum (map (fun x => x ^ 2) (nth 1 l []))))).
    { apply (expect_ext S n); [exact Ls|]. intros l (L1 & T). destruct l as [|x [|y [|]]]; try discriminate. cbn [noise_of nth].
      apply nrm2_complex_noise; [rewrite (T x)|rewrite (T y)]; cbn; auto. }
    rewrite !expect_plus, !expect_scal. cbn [expect nth].
    rewrite !(mean_const _ _ M1).
    rewrite (mean_ext S (fun w => mean S (fun _ => rsum (map2 Rmult (map fst A) w))) (fun w => rsum (map2 Rmult (map fst A) w)))
      by (intros; apply mean_const, M1).
    rewrite (mean_ext S (fun w => mean S (fun _ => rsum (map (fun x => x ^ 2) w))) (fun w => rsum (map (fun x => x ^ 2) w)))
      by (intros; apply mean_const, M1).
    rewrite !(mean_nth S n v W) by (rewrite map_length; auto). rewrite ?M2, ?(mean_const _ _ M1). cbn [INR]. ring.
  - transitivity (expect S 1 (fun l => nrm2 A + 2 * c * rsum (map2 Rmult (map fst A) (nth 0 l [])) + c ^ 2 * rsum (map (fun x => x ^ 2) (nth 0 l [])))).
    { apply (expect_ext S n); [exact Ls|]. intros l (L1 & T). destruct l as [|x [|]]; try discriminate. cbn [noise_of nth].
      apply nrm2_real_noise. rewrite (T x); cbn; auto. }
    rewrite !expect_plus, !expect_scal. cbn [expect nth].
    rewrite (mean_const _ _ M1), (mean_nth S n v W) by (rewrite map_length; auto). rewrite M2. cbn [INR]. ring.
Qed.

Lemma geom_S : forall r k, geom r (S k) = 1 + r * geom r k. Proof. reflexivity. Qed.
Lemma geom_value : forall r k, (1 - r) * geom r k = 1 - r ^ k.
Proof. intros r k. induction k as [|k IH]; cbn [geom pow]; [ring|]. transitivity ((1 - r) + r * ((1 - r) * geom r k)); [ring|]. rewrite IH. ring. Qed.
Lemma geom_nonneg : forall r k, 0 <= r -> 0 <= geom r k.
Proof. intros r k H. induction k as [|k IH]; cbn [geom]; [lra|]. assert (0 <= r * geom r k) by (apply Rmult_le_pos; auto). lra. Qed.
Lemma geom_last : forall r k, geom r (S k) = geom r k + r ^ k.
Proof. intros r k. induction k as [|k IH]; cbn [geom pow] in *; [ring|]. assert (H := f_equal (Rmult r) IH). cbn beta in H. lra. Qed.

(** ** iterates *)

Section Iter.
Variable A : vec -> vec.              (* the mean of the next sample *)
Variable c : R.
Variable b : bool.
Fixpoint it (k : nat) (X : vec) (l : list (list R)) : vec :=
  match k with
  | O => X
  | S k => it k (vadd (A X) (vscal (RtoC c) (noise_of b l))) (skipn (per_step b) l)
  end.

Variable S : law.
Variable n : nat.
Variable v : R.
Hypothesis W : white S n v.
Hypothesis LA : forall X, length X = n -> length (A X) = n.

Lemma noise_of_app : forall l l', length l = per_step b -> noise_of b (l ++ l') = noise_of b l.
Proof.
  intros l l' L. destruct b; cbn in L |- *.
  - destruct l as [|x [|y [|]]]; try discriminate. reflexivity.
  - destruct l as [|x [|]]; try discriminate. reflexivity.
Qed.
Lemma skipn_exact : forall {T} (l l' : list T) k, length l = k -> skipn k (l ++ l') = l'.
Proof. intros T l l' k <-. rewrite skipn_app, skipn_all, Nat.sub_diag. reflexivity. Qed.

Lemma tape_noise_length : forall l1, tape_of n (per_step b) l1 -> length (noise_of b l1) = n.
Proof.
  intros l1 (L1 & I). destruct b; cbn in L1 |- *.
  - destruct l1 as [|x [|y [|]]]; try discriminate. cbn [nth]. rewrite map2_length; [apply I; cbn; auto|].
    rewrite (I x), (I y); cbn; auto.
  - destruct l1 as [|x [|]]; try discriminate. cbn [nth]. rewrite map_length. apply I; cbn; auto.
Qed.

Lemma it_length : forall k X l, length X = n -> tape_of n (per_step b * k) l -> length (it k X l) = n.
Proof.
  induction k as [|k IH]; intros X l LX (T1 & T2); [exact LX|]. cbn [it]. 
  set (l1 := firstn (per_step b) l). set (l2 := skipn (per_step b) l).
  assert (E : l = l1 ++ l2) by (symmetry; apply firstn_skipn).
  assert (L1 : length l1 = per_step b) by (unfold l1; rewrite firstn_length; lia).
  apply IH.
  - rewrite E, noise_of_app by exact L1.
    assert (LN : length (noise_of b l1) = n).
    { apply tape_noise_length. split; [exact L1|]. intros; apply T2; rewrite E; apply in_or_app; auto. }
    rewrite vadd_length; rewrite ?vscal_length, LA; auto.
  - split; [unfold l2; rewrite skipn_length; lia|]. intros w Hw. apply T2. rewrite E. apply in_or_app; auto.
Qed.

(** second moment about y after k+1 steps, from the moment after k steps *)
Lemma expect_first : forall k K X (h : vec -> R), length X = n -> (per_step b * (Datatypes.S k) <= K)%nat ->
  expect S K (fun l => h (it (Datatypes.S k) X l)) =
  expect S (per_step b) (fun l1 => expect S (K - per_step b) (fun l => h (it k (vadd (A X) (vscal (RtoC c) (noise_of b l1))) l))).
Proof.
  intros k K X h LX HK. replace K with (per_step b + (K - per_step b))%nat at 1 by lia. rewrite expect_app.
  apply (expect_ext S n); [intros; apply W; auto|]. intros l1 (L1 & T1).
  apply (expect_ext S n); [intros; apply W; auto|]. intros l2 _. cbn [it].
  rewrite noise_of_app, skipn_exact by exact L1. reflexivity.
Qed.

Lemma next_length : forall X l1, length X = n -> tape_of n (per_step b) l1 ->
  length (vadd (A X) (vscal (RtoC c) (noise_of b l1))) = n.
Proof. intros X l1 LX T. rewrite vadd_length; rewrite ?vscal_length, LA; auto. symmetry. apply tape_noise_length, T. Qed.

Lemma shift_noise : forall x y z : vec, length x = length y -> length y = length z -> vsub (vadd x z) y = vadd (vsub x y) z.
Proof.
  unfold vsub, vadd. induction x as [|a x IH]; intros [|b' y] [|z0 z]; cbn; intros; try lia; auto. f_equal; [ring|apply IH; lia].
Qed.

Local Notation m2 := (v * INR n * INR (per_step b)).

(** the mean square distance of the next sample to y *)
Lemma next_second : forall X y, length X = n -> length y = n ->
  expect S (per_step b) (fun l => nrm2 (vsub (vadd (A X) (vscal (RtoC c) (noise_of b l))) y)) = nrm2 (vsub (A X) y) + c ^ 2 * m2.
Proof.
  intros X y LX Ly. assert (LAX := LA X LX).
  transitivity (expect S (per_step b) (fun l => nrm2 (vadd (vsub (A X) y) (vscal (RtoC c) (noise_of b l))))).
  - apply (expect_ext S n); [intros; apply W; auto|]. intros l T. rewrite shift_noise; auto; [congruence|].
    rewrite vscal_length, tape_noise_length by exact T. auto.
  - apply noise_second; auto. rewrite vsub_length; congruence.
Qed.

Lemma second_upper : forall rho y, 0 <= rho -> length y = n ->
  (forall X, length X = n -> nrm2 (vsub (A X) y) <= rho * nrm2 (vsub X y)) ->
  forall k K X, length X = n -> (per_step b * k <= K)%nat ->
  expect S K (fun l => nrm2 (vsub (it k X l) y)) <= rho ^ k * nrm2 (vsub X y) + c ^ 2 * m2 * geom rho k.
Proof.
  intros rho y Hr Ly CT. assert (M1 : mean S (fun _ => 1) = 1) by apply W.
  induction k as [|k IH]; intros K X LX HK.
  - cbn [it geom pow]. rewrite expect_const by exact M1. lra.
  - rewrite (expect_first k K X (fun Z => nrm2 (vsub Z y))) by auto.
    apply Rle_trans with (expect S (per_step b) (fun l1 => rho ^ k * nrm2 (vsub (vadd (A X) (vscal (RtoC c) (noise_of b l1))) y) + c ^ 2 * m2 * geom rho k)).
    + apply (expect_le S n); [intros; apply W; auto|]. intros l1 T. apply IH; [apply next_length; auto|lia].
    + rewrite expect_plus, expect_scal, expect_const, next_second by auto.
      assert (HC := CT X LX). assert (P : 0 <= rho ^ k) by (apply pow_le; auto). rewrite geom_last.
      apply Rle_trans with (rho ^ k * (rho * nrm2 (vsub X y) + c ^ 2 * m2) + c ^ 2 * m2 * geom rho k).
      * apply Rplus_le_compat_r, Rmult_le_compat_l; [exact P|]. lra.
      * cbn [pow]. apply Req_le. ring.
Qed.

Lemma second_exact : forall rho y, length y = n ->
  (forall X, length X = n -> nrm2 (vsub (A X) y) = rho * nrm2 (vsub X y)) ->
  forall k K X, length X = n -> (per_step b * k <= K)%nat ->
  expect S K (fun l => nrm2 (vsub (it k X l) y)) = rho ^ k * nrm2 (vsub X y) + c ^ 2 * m2 * geom rho k.
Proof.
  intros rho y Ly CT. assert (M1 : mean S (fun _ => 1) = 1) by apply W.
  induction k as [|k IH]; intros K X LX HK.
  - cbn [it geom pow]. rewrite expect_const by exact M1. ring.
  - rewrite (expect_first k K X (fun Z => nrm2 (vsub Z y))) by auto.
    transitivity (expect S (per_step b) (fun l1 => rho ^ k * nrm2 (vsub (vadd (A X) (vscal (RtoC c) (noise_of b l1))) y) + c ^ 2 * m2 * geom rho k)).
    + apply (expect_ext S n); [intros; apply W; auto|]. intros l1 T. apply IH; [apply next_length; auto|lia].
    + rewrite expect_plus, expect_scal, expect_const, next_second by auto.
      rewrite (CT X LX), geom_last. cbn [pow]. ring.
Qed.

(** what is stored: the sample, or its real part in a real chain *)
Definition st (z : vec) : vec := if b then z else map (fun u => RtoC (fst u)) z.

Lemma st_next : forall x l, length x = n -> tape_of n (per_step b) l ->
  st (vadd x (vscal (RtoC c) (noise_of b l))) = vadd (st x) (vscal (RtoC c) (noise_of b l)).
Proof.
  intros x l Lx T. assert (LN := tape_noise_length l T). unfold st. destruct b; [reflexivity|]. cbn [noise_of] in *.
  rewrite map_length in LN. rewrite <- LN in Lx. clear LN T. revert x Lx. unfold vadd, vscal. induction (nth 0 l []) as [|w ws IH]; intros [|x xs] L; cbn in *; try lia; auto.
  f_equal; [|apply IH; lia]. destruct x. unfold RtoC, Cplus, Cmult; cbn. f_equal; ring.
Qed.
Lemma st_length : forall x, length (st x) = length x.
Proof. intros x. unfold st. destruct b; [reflexivity|]. apply map_length. Qed.

Lemma second_lower : forall y, length y = n ->
  forall k K X, length X = n -> (per_step b * (Datatypes.S k) <= K)%nat ->
  c ^ 2 * m2 <= expect S K (fun l => nrm2 (vsub (st (it (Datatypes.S k) X l)) y)).
Proof.
  intros y Ly. assert (M1 : mean S (fun _ => 1) = 1) by apply W.
  induction k as [|k IH]; intros K X LX HK.
  - rewrite (expect_first 0 K X (fun Z => nrm2 (vsub (st Z) y))) by auto. cbn [it].
    apply Rle_trans with (expect S (per_step b) (fun l1 => nrm2 (vadd (vsub (st (A X)) y) (vscal (RtoC c) (noise_of b l1))))).
    + rewrite (noise_second S n v) by (auto; rewrite vsub_length; rewrite st_length, LA; auto).
      assert (H := nrm2_nonneg (vsub (st (A X)) y)). lra.
    + apply Req_le. apply (expect_ext S n); [intros; apply W; auto|]. intros l1 T. rewrite expect_const by exact M1.
      rewrite st_next, shift_noise; auto; rewrite ?st_length, ?vscal_length, ?tape_noise_length, ?LA; auto.
  - rewrite (expect_first (Datatypes.S k) K X (fun Z => nrm2 (vsub (st Z) y))) by auto.
    apply Rle_trans with (expect S (per_step b) (fun _ => c ^ 2 * m2)); [rewrite expect_const by exact M1; lra|].
    apply (expect_le S n); [intros; apply W; auto|]. intros l1 T. apply IH; [apply next_length; auto|lia].
Qed.

Lemma dot_real_noise : forall (c0 : R) a w, length a = length w ->
  Re (cdot a (vscal (RtoC c0) (map RtoC w))) = c0 * rsum (map2 Rmult (map fst a) w).
Proof.
  intros c0. unfold cdot, vscal. induction a as [|z a IH]; intros [|x w] L; cbn in L; try lia; [cbn; ring|].
  cbn [map map2 csum fold_right rsum]. rewrite Re_plus.
  transitivity (Re (Cconj z * (RtoC c0 * RtoC x))%C + Re (csum (map2 (fun a0 b0 : C => (Cconj a0 * b0)%C) a (map (Cmult c0) (map RtoC w))))); [reflexivity|].
  rewrite IH by lia. destruct z; unfold Re; cbn. unfold rsum. ring.
Qed.
Lemma dot_complex_noise : forall (c0 : R) a w w', length a = length w -> length a = length w' ->
  Re (cdot a (vscal (RtoC c0) (map2 (fun x y => (x, y)) w w'))) =
  c0 * rsum (map2 Rmult (map fst a) w) + c0 * rsum (map2 Rmult (map snd a) w').
Proof.
  intros c0. unfold cdot, vscal. induction a as [|z a IH]; intros [|x w] [|y w'] L L'; cbn in L, L'; try lia; [cbn; ring|].
  cbn [map map2 csum fold_right rsum]. rewrite Re_plus.
  transitivity (Re (Cconj z * (RtoC c0 * (x, y)))%C + Re (csum (map2 (fun a0 b0 : C => (Cconj a0 * b0)%C) a (map (Cmult c0) (map2 (fun x y => (x, y)) w w'))))); [reflexivity|].
  rewrite (IH w w') by lia. destruct z; unfold Re; cbn. unfold rsum. ring.
Qed.
Lemma noise_first : forall a, length a = n -> expect S (per_step b) (fun l => Re (cdot a (vscal (RtoC c) (noise_of b l)))) = 0.
Proof.
  intros a Ea. assert (W' := W). destruct W' as (L & M1 & _ & M2).
  assert (Ls : forall pw, In pw S -> length (snd pw) = n) by (intros; apply L; auto).
  destruct b; cbn [per_step].
  - transitivity (expect S 2 (fun l => c * rsum (map2 Rmult (map fst a) (nth 0 l [])) + c * rsum (map2 Rmult (map snd a) (nth 1 l [])))).
    { apply (expect_ext S n); [exact Ls|]. intros l (L1 & T). destruct l as [|x [|y [|]]]; try discriminate. cbn [noise_of nth].
      apply dot_complex_noise; [rewrite (T x)|rewrite (T y)]; cbn; auto. }
    rewrite !expect_plus, !expect_scal. cbn [expect nth].
    rewrite (mean_ext S (fun w => mean S (fun _ => rsum (map2 Rmult (map fst a) w))) (fun w => rsum (map2 Rmult (map fst a) w)))
      by (intros; apply mean_const, M1).
    rewrite !(mean_nth S n v W) by (rewrite map_length; auto). rewrite ?(mean_const _ _ M1). ring.
  - transitivity (expect S 1 (fun l => c * rsum (map2 Rmult (map fst a) (nth 0 l [])))).
    { apply (expect_ext S n); [exact Ls|]. intros l (L1 & T). destruct l as [|x [|]]; try discriminate. cbn [noise_of nth].
      apply dot_real_noise. rewrite (T x); cbn; auto. }
    rewrite !expect_scal. cbn [expect nth]. rewrite (mean_nth S n v W) by (rewrite map_length; auto). ring.
Qed.

(** means of linear functionals, when the mean step is a homothety about y *)
Lemma first_exact : forall r y a, length y = n -> length a = n ->
  (forall X, length X = n -> vsub (A X) y = vscal (RtoC r) (vsub X y)) ->
  forall k K X, length X = n -> (per_step b * k <= K)%nat ->
  expect S K (fun l => Re (cdot a (vsub (it k X l) y))) = r ^ k * Re (cdot a (vsub X y)).
Proof.
  intros r y a Ly Ea CT. assert (M1 : mean S (fun _ => 1) = 1) by apply W.
  induction k as [|k IH]; intros K X LX HK.
  - cbn [it pow]. rewrite expect_const by exact M1. ring.
  - rewrite (expect_first k K X (fun Z => Re (cdot a (vsub Z y)))) by auto.
    transitivity (expect S (per_step b) (fun l1 => r ^ k * (Re (cdot a (vsub (A X) y)) + Re (cdot a (vscal (RtoC c) (noise_of b l1)))))).
    + apply (expect_ext S n); [intros; apply W; auto|]. intros l1 T. rewrite IH; [|apply next_length; auto|lia]. f_equal.
      assert (LN := tape_noise_length l1 T). assert (LAX := LA X LX).
      rewrite shift_noise; [|congruence|rewrite vscal_length; congruence].
      rewrite cdot_vadd_r; [reflexivity|rewrite vsub_length; congruence|rewrite vsub_length, vscal_length; congruence].
    + rewrite expect_scal, expect_plus, expect_const, noise_first by auto.
      rewrite (CT X LX), Re_cdot_vscal_r. cbn [pow]. ring.
Qed.
End Iter.

(** keeping the real parts only commutes with the iteration if it does with the mean *)
Lemma it_st : forall A A' c b n, (forall X, length X = n -> length (A X) = n) ->
  (forall X, length X = n -> st b (A X) = A' (st b X)) ->
  forall k X l, length X = n -> (forall w, In w l -> length w = n) -> (per_step b * k <= length l)%nat ->
  st b (it A c b k X l) = it A' c b k (st b X) l.
Proof.
  intros A A' c b n LA C. induction k as [|k IH]; intros X l LX T HL; [reflexivity|]. cbn [it].
  assert (E : l = firstn (per_step b) l ++ skipn (per_step b) l) by (symmetry; apply firstn_skipn).
  assert (TT : tape_of n (per_step b) (firstn (per_step b) l)).
  { split; [rewrite firstn_length; lia|intros w Hw; apply T; rewrite E; apply in_or_app; auto]. }
  assert (EN : noise_of b (firstn (per_step b) l) = noise_of b l).
  { rewrite E at 2. symmetry. apply noise_of_app. rewrite firstn_length; lia. }
  rewrite <- EN. rewrite IH.
  - rewrite (st_next c b n) by auto. rewrite C by auto. reflexivity.
  - apply (next_length A c b n); auto.
  - intros w Hw. apply T. rewrite E. apply in_or_app; auto.
  - rewrite skipn_length. lia.
Qed.

