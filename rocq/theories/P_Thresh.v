(** Property theorems about soft and hard thresholding
    (/repo/pxmcmc/utils.py:55-88; model Thresh.v, vocabulary ThreshSpec.v). *)
From Coq Require Import List ZArith Lia Bool Reals Lra.
From Coquelicot Require Import Coquelicot.
From Verif Require Import PyBase CVec RSort Thresh ThreshSpec ThreshProof.
Import ListNotations.
Open Scope R_scope.

(** ** C20: soft is the proximal map of the weighted l1 norm *)

(** The result is the unique minimiser of 1/2||u-X||^2 + sum_i T_i|u_i|. *)
Theorem C20_soft_prox : forall X T Tl,
  thresholds T (length X) Tl -> (forall t, In t Tl -> 0 <= t) ->
  exists s, soft X T = Ok s /\ unique_minimiser (wl1 Tl) X s /\ is_prox (wl1 Tl) X s.
Proof.
  intros X T Tl H N. exists (map2 soft1 X Tl). rewrite (soft_thresholds _ _ _ H).
  assert (A : is_prox (wl1 Tl) X (map2 soft1 X Tl)) by (apply soft_is_prox; [apply H|auto]).
  auto using is_prox_unique_minimiser.
Qed.
Print Assumptions C20_soft_prox.

(** Componentwise: the magnitude shrinks by T_i (to 0 at least), the phase is
    kept, and exactly the components with |X_i| <= T_i become 0. *)
Theorem C20_soft_components : forall X T Tl s,
  thresholds T (length X) Tl -> (forall t, In t Tl -> 0 <= t) -> soft X T = Ok s ->
  length s = length X /\
  forall i, (i < length X)%nat ->
    let x := nth i X (RtoC 0) in let t := nth i Tl 0 in let y := nth i s (RtoC 0) in
    Cmod y = Rmax (Cmod x - t) 0 /\
    (exists c, 0 <= c <= 1 /\ y = (RtoC c * x)%C) /\
    (y = RtoC 0 <-> Cmod x <= t).
Proof.
  intros X T Tl s H N E. rewrite (soft_thresholds _ _ _ H) in E. injection E as <-.
  assert (L : length Tl = length X) by apply H.
  split; [apply map2_length; auto|]. intros i Hi. cbv zeta.
  rewrite (nth_map2 _ _ _ _ (RtoC 0) 0) by (auto; congruence).
  assert (0 <= nth i Tl 0) by (apply N, nth_In; lia).
  auto using Cmod_soft1, soft1_phase, soft1_zero_iff.
Qed.
Print Assumptions C20_soft_components.

Theorem C20_soft_nonexpansive : forall X Y T Tl s t,
  length X = length Y -> thresholds T (length X) Tl -> (forall t, In t Tl -> 0 <= t) ->
  soft X T = Ok s -> soft Y T = Ok t -> nrm2 (vsub s t) <= nrm2 (vsub X Y).
Proof.
  intros X Y T Tl s t L H N E F. rewrite (soft_thresholds _ _ _ H) in E. injection E as <-.
  rewrite L in H. rewrite (soft_thresholds _ _ _ H) in F. injection F as <-.
  assert (length Tl = length Y) by apply H. apply soft_nonexpansive; auto; congruence.
Qed.
Print Assumptions C20_soft_nonexpansive.

(** Thresholds that do not match X (and cannot be broadcast) are rejected. *)
Theorem C20_soft_shape_error : forall X Tl,
  length Tl <> length X -> length Tl <> 1%nat -> length X <> 1%nat -> soft X (TVec Tl) = Raise ValueError.
Proof. exact soft_shape_error. Qed.
Print Assumptions C20_soft_shape_error.

Example C20_case : soft [RtoC 3; RtoC (-1/2); RtoC (-2)] (TScal 1) = Ok [RtoC 2; RtoC 0; RtoC (-1)].
Proof.
  rewrite soft_scal. simpl. unfold soft1. rewrite !Cmod_R.
  rewrite (Rabs_right 3), (Rabs_left (-1/2)), (Rabs_left (-2)) by lra.
  repeat (destruct (Rle_dec _ _); try lra). repeat (destruct (Req_EM_T _ _); try lra).
  rewrite <- !RtoC_mult. do 2 f_equal; [f_equal; field|]. f_equal. f_equal. f_equal. field.
Qed.

(** ** C21: hard keeps the largest fraction *)

(** k is r with its fractional part dropped (Python [int(r)]) *)
Definition truncation (r : R) (k : Z) : Prop :=
  (0 <= r -> IZR k <= r < IZR k + 1) /\ (r < 0 -> IZR k - 1 < r <= IZR k).
Lemma truncation_Rtrunc : forall r k, truncation r k -> k = Rtrunc r.
Proof.
  intros r k [A B]. destruct (Rle_lt_dec 0 r) as [H|H].
  - symmetry. apply Rtrunc_unique; auto.
  - unfold Rtrunc. destruct (Rle_dec 0 r); [lra|]. specialize (B H). destruct (base_Int_part (- r)) as [P Q].
    assert (E : IZR (- k) < IZR (Int_part (- r) + 1)) by (rewrite plus_IZR, opp_IZR; lra).
    assert (F : IZR (Int_part (- r)) < IZR (- k + 1)) by (rewrite plus_IZR, opp_IZR; lra).
    apply lt_IZR in E, F. lia.
Qed.

(** There is a magnitude v of X such that the entries with |X_i| >= v are kept
    and the others are 0; at least k are kept, fewer than k exceed v strictly. *)
Theorem C21_hard_keeps_largest : forall X T k, truncation (T * INR (length X)) k -> (1 <= k <= Z.of_nat (length X))%Z ->
  exists v r, hard X T = Ok r /\ In v (vabs X) /\ keeps_from v X r /\
    (count (fun a => Rltb v a) (vabs X) < Z.to_nat k)%nat /\
    (Z.to_nat k <= count (fun a => Rleb v a) (vabs X))%nat.
Proof. intros X T k K H. exact (hard_threshold X T k (truncation_Rtrunc _ _ K) H). Qed.
Print Assumptions C21_hard_keeps_largest.

Lemma count_strict_plus_equal : forall v l, NoDup l -> In v l ->
  count (fun a => Rleb v a) l = S (count (fun a => Rltb v a) l).
Proof.
  intros v l ND. induction ND as [|x l NI ND IH]; intros H; [destruct H|].
  rewrite !count_cons. destruct H as [->|H].
  - destruct (Rleb_spec v v); [|lra]. destruct (Rltb_spec v v); [lra|].
    assert (Z : forall l, ~ In v l -> count (fun a => Rleb v a) l = count (fun a => Rltb v a) l).
    { induction l0; intros Hn; auto. rewrite !count_cons, IHl0 by (intro; apply Hn; right; auto).
      assert (a <> v) by (intro; apply Hn; left; auto).
      destruct (Rleb_spec v a), (Rltb_spec v a); auto; lra. }
    rewrite Z by auto. lia.
  - rewrite (IH H). assert (x <> v) by (intros ->; auto).
    destruct (Rleb_spec v x), (Rltb_spec v x); try lia; lra.
Qed.

(** With distinct magnitudes exactly k entries are kept. *)
Theorem C21_hard_exactly_k : forall X T k, truncation (T * INR (length X)) k -> (1 <= k <= Z.of_nat (length X))%Z ->
  NoDup (vabs X) ->
  exists v r, hard X T = Ok r /\ keeps_from v X r /\
    count (fun a => Rleb v a) (vabs X) = Z.to_nat k.
Proof.
  intros X T k K H ND. destruct (C21_hard_keeps_largest X T k K H) as [v [r [A [B [D [E F]]]]]].
  exists v, r. split; [auto|split; [auto|]]. rewrite (count_strict_plus_equal v _ ND B) in *. lia.
Qed.
Print Assumptions C21_hard_exactly_k.

(** every kept magnitude is at least every zeroed one *)
Theorem C21_hard_kept_above_zeroed : forall X T k r, truncation (T * INR (length X)) k -> (1 <= k <= Z.of_nat (length X))%Z ->
  hard X T = Ok r -> forall i j, (i < length X)%nat -> (j < length X)%nat ->
  nth i r (RtoC 0) <> RtoC 0 -> nth j r (RtoC 0) <> nth j X (RtoC 0) ->
  Cmod (nth j X (RtoC 0)) <= Cmod (nth i X (RtoC 0)).
Proof.
  intros X T k r Tk H E i j Hi Hj A B. destruct (C21_hard_keeps_largest X T k Tk H) as [v [r' [E' [_ [[_ K] _]]]]].
  rewrite E in E'; injection E' as <-.
  destruct (K i Hi) as [_ Ki], (K j Hj) as [Kj _].
  assert (v <= Cmod (nth i X (RtoC 0))) by (destruct (Rle_lt_dec v (Cmod (nth i X (RtoC 0)))); auto; exfalso; auto).
  assert (Cmod (nth j X (RtoC 0)) < v) by (destruct (Rle_lt_dec v (Cmod (nth j X (RtoC 0)))); auto; exfalso; auto).
  lra.
Qed.
Print Assumptions C21_hard_kept_above_zeroed.

(** The documented "largest 100T% are kept" fails when T*len < 1: everything is
    kept instead of nothing. *)
Theorem C21_hard_small_fraction_keeps_all : forall X T, X <> [] -> 0 <= T * INR (length X) < 1 -> hard X T = Ok X.
Proof.
  intros X T HX H. apply hard_keeps_everything; auto. apply Rtrunc_unique; lra.
Qed.
Print Assumptions C21_hard_small_fraction_keeps_all.

(** a negative fraction indexes the sorted magnitudes from the front: the |k|
    smallest are zeroed *)
Theorem C21_hard_negative_fraction : forall X T k, truncation (T * INR (length X)) k -> (- Z.of_nat (length X) < k <= 0)%Z ->
  exists v r, hard X T = Ok r /\ In v (vabs X) /\ keeps_from v X r /\
    (count (fun a => Rltb a v) (vabs X) <= Z.to_nat (- k))%nat /\
    (Z.to_nat (- k) < count (fun a => Rleb a v) (vabs X))%nat.
Proof.
  intros X T k K B. apply truncation_Rtrunc in K.
  assert (L : length (rsort (vabs X)) = length X) by (rewrite rsort_length; apply map_length).
  unfold hard. rewrite <- K. rewrite (py_index_pos _ (- k) 0) by (rewrite L; lia).
  set (v := nth (Z.to_nat (- k)) (rsort (vabs X)) 0).
  cbn [rbind]. rewrite mask_assign_filter. exists v. eexists. split; [reflexivity|].
  assert (Lv : length (vabs X) = length X) by apply map_length.
  destruct (order_statistic (vabs X) (Z.to_nat (- k)) 0) as [P Q]; [rewrite Lv; lia|].
  split; [|split; [apply keeps_from_filter|split; [exact P|exact Q]]].
  apply Permutation.Permutation_in with (rsort (vabs X)); [symmetry; apply rsort_perm|].
  apply nth_In. rewrite L. lia.
Qed.
Print Assumptions C21_hard_negative_fraction.

Theorem C21_hard_out_of_range : forall X T k, truncation (T * INR (length X)) k ->
  (Z.of_nat (length X) < k \/ k <= - Z.of_nat (length X))%Z ->
  hard X T = Raise IndexError.
Proof. intros X T k K H. exact (hard_out_of_range X T k (truncation_Rtrunc _ _ K) H). Qed.
Print Assumptions C21_hard_out_of_range.

(** every T has such a k, so the three cases above cover all calls *)
Theorem C21_hard_cases : forall (X : vec) (T : R), exists k, truncation (T * INR (length X)) k.
Proof.
  intros X T. exists (Rtrunc (T * INR (length X))). set (r := T * INR (length X)). unfold truncation, Rtrunc.
  destruct (Rle_dec 0 r) as [H|H].
  - destruct (base_Int_part r). split; intros; lra.
  - destruct (base_Int_part (- r)). split; intros; [lra|]. rewrite opp_IZR. lra.
Qed.
Print Assumptions C21_hard_cases.

(** -0.5 truncates to 0, so nothing is zeroed; -1.5 to -1 *)
Example C21_case_negative : truncation (-1/4 * INR 2) 0 /\ truncation (-3/4 * INR 2) (-1).
Proof. unfold truncation. cbn [INR]. split; split; intros; lra. Qed.

Example C21_case : hard [RtoC 1; RtoC (-3); RtoC 2; RtoC (1/2)] (1/2) = Ok [RtoC 0; RtoC (-3); RtoC 2; RtoC 0].
Proof.
  assert (Hk : Rtrunc (1 / 2 * INR 4) = 2%Z) by (apply Rtrunc_unique; simpl; lra).
  unfold hard. simpl length. rewrite Hk. unfold vabs. simpl map. rewrite !Cmod_R.
  rewrite (Rabs_right 1), (Rabs_left (-3)), (Rabs_right 2), (Rabs_right (1/2)) by lra.
  replace (- -3) with 3 by ring.
  cbn -[Rleb Rltb Rdiv].
  repeat (match goal with
          | |- context[Rleb ?a ?b] => destruct (Rleb_spec a b); try lra
          | |- context[Rle_dec ?a ?b] => destruct (Rle_dec a b); try lra
          | |- context[Rltb ?a ?b] => destruct (Rltb_spec a b); try lra
          end; cbn -[Rleb Rltb Rdiv]; change (Pos.to_nat 2) with 2%nat; cbn -[Rleb Rltb Rdiv]).
  reflexivity.
Qed.
