(** From families with a limit to distances (C66). *)
From Coq Require Import List ZArith Lia Bool Reals Lra Psatz.
From Coquelicot Require Import Coquelicot.
From Verif Require Import PyBase PyBaseFacts CVec Mcmc Sampler ParamSpec RepSpec Ieee IeeeProof RoundProof LimProof LimOps LimRun LimInst LimSpec.
Import ListNotations.
Notation length := List.length.
Open Scope R_scope.

Section Agree.
Variable I : Type.
Variable near : (I -> Prop) -> Prop.
Variable rnd : I -> R -> float.
Hypothesis LI : limit I near rnd.
Hypothesis NE : forall P, near P -> exists i, P i.
Notation tends := (tends I near).

(** a family has the limit b, and b stands for c: the family is near c *)
Definition agree {A B C} (T : (I -> A) -> B -> Prop) (Rel : R -> A -> C -> Prop) (Same : B -> C -> Prop) : Prop :=
  forall a b c, Same b c -> (T a b <-> forall e, 0 < e -> near (fun i => Rel e (a i) c)).

Lemma n2 : forall P Q R : I -> Prop, near P -> near Q -> (forall i, P i -> Q i -> R i) -> near R.
Proof. exact (both _ _ _ LI). Qed.

Lemma agree_num : agree (TK I near) near_num same_num.
Proof.
  intros a b c (r & -> & ->). split.
  - intros (_ & H) e He. apply (li_mono _ _ _ LI _ _) with (2 := H e He). intros i (x & y & E1 & E2 & D). injection E1 as <-. exists y, r. auto.
  - intros H. split; [exists (Rabs r); apply (li_true _ _ _ LI); intros i; exists r; split; [reflexivity|lra]|].
    intros e He. apply (li_mono _ _ _ LI _ _) with (2 := H e He). intros i (y & s & E & E2 & D). apply RtoC_inj in E2. subst s. exists r, y. auto.
Qed.
Lemma agree_step : agree (TP I near) near_step same_step.
Proof.
  intros a b c (-> & Hc). assert (Q := agree_num a (Fin c) (RtoC c) ltac:(exists c; auto)). split.
  - intros (d & E & Hd & H) e He. apply (li_mono _ _ _ LI _ _) with (2 := proj1 Q H e He). intros i (r & s & E1 & E2 & D). apply RtoC_inj in E2. subst s. split; [exact Hc|]. exists r. auto.
  - intros H. exists c. split; [reflexivity|]. split; [exact Hc|]. apply Q. intros e He. apply (li_mono _ _ _ LI _ _) with (2 := H e He).
    intros i (_ & r & E & D). exists r, c. auto.
Qed.
Lemma nth_Fin v k : (k < length v)%nat -> nth k (map Fin v) NaN = Fin (nth k v 0).
Proof. intros H. rewrite (nth_indep _ NaN (Fin 0)) by (rewrite map_length; exact H). apply map_nth. Qed.
Lemma map_RtoC_inj v w : map RtoC v = map RtoC w -> v = w.
Proof. revert w. induction v as [|a v IH]; intros [|b w] E; try discriminate; [reflexivity|]. cbn in E. injection E as E1 E2. f_equal; auto. Qed.
Lemma near_all (n : nat) (P : nat -> I -> Prop) : (forall k, (k < n)%nat -> near (P k)) -> near (fun i => forall k, (k < n)%nat -> P k i).
Proof.
  induction n as [|n IH]; intros H; [apply (li_true _ _ _ LI); intros; lia|].
  apply (n2 _ _ _ (IH (fun k Hk => H k ltac:(lia))) (H n ltac:(lia))). intros i H1 H2 k Hk. destruct (Nat.eq_dec k n) as [->|]; [exact H2|apply H1; lia].
Qed.
Lemma all_fin (x : fvec) : (forall k, (k < length x)%nat -> exists r, nth k x NaN = Fin r) -> exists v, x = map Fin v.
Proof.
  induction x as [|a x IH]; intros H; [exists []; reflexivity|]. destruct IH as (v & ->). { intros k Hk. exact (H (S k) ltac:(cbn; lia)). }
  destruct (H 0%nat ltac:(cbn; lia)) as (r & E). cbn in E. subst a. exists (r :: v). reflexivity.
Qed.
Lemma agree_vec n : agree (TV I near n) (near_vec n) (same_vec n).
Proof.
  intros a b c (w & Lw & -> & ->). split.
  - intros (L & H) e He.
    assert (A : near (fun i => forall k, (k < n)%nat -> exists y, nth k (a i) NaN = Fin y /\ Rabs (y - nth k w 0) <= e)).
    { apply near_all. intros k Hk. destruct (H k Hk) as (_ & Q). apply (li_mono _ _ _ LI _ _) with (2 := Q e He). intros i (x & y & E1 & E2 & D).
      rewrite nth_Fin in E1 by lia. injection E1 as <-. exists y. auto. }
    apply (n2 _ _ _ L A). intros i (Li & _) Ai. destruct (all_fin (a i)) as (v & E). { intros k Hk. destruct (Ai k ltac:(lia)) as (y & E & _). eauto. }
    rewrite E in *. rewrite map_length in Li. exists v, w. repeat (split; [auto|]). intros k Hk. destruct (Ai k Hk) as (y & Ey & D). rewrite nth_Fin in Ey by lia. injection Ey as <-. exact D.
  - intros H. split.
    + apply (li_mono _ _ _ LI _ _) with (2 := H 1 Rlt_0_1). intros i (v & w' & -> & _ & L & _). rewrite !map_length. auto.
    + intros k Hk. split.
      * exists (Rabs (nth k w 0)). apply (li_true _ _ _ LI). intros i. exists (nth k w 0). rewrite nth_Fin by lia. split; [reflexivity|lra].
      * intros e He. apply (li_mono _ _ _ LI _ _) with (2 := H e He). intros i (v & w' & -> & E & L & _ & D). apply map_RtoC_inj in E. subst w'.
        exists (nth k w 0), (nth k v 0). rewrite !nth_Fin by lia. auto.
Qed.

(** ** lists and attributes *)
Section L.
Context {A B C : Type}.
Variable dflt : A.
Variable T : (I -> A) -> B -> Prop.
Variable Rel : R -> A -> C -> Prop.
Variable Same : B -> C -> Prop.
Hypothesis AG : agree T Rel Same.
Lemma agree_list : agree (tlist I near T) (fun e => Forall2 (Rel e)) (Forall2 Same).
Proof.
  intros L l c F. split.
  - intros (Ls & N & FT) e He. assert (Q : near (fun i => Forall2 (Rel e) (map (fun v : I -> A => v i) Ls) c)).
    { clear N L. revert Ls FT. induction F as [|b c0 l c S F IH]; intros Ls FT; inversion FT as [|a ? Ls' ? Ta FT']; subst; [apply (li_true _ _ _ LI); constructor|].
      apply (n2 _ _ _ (proj1 (AG _ _ _ S) Ta e He) (IH _ FT')). intros i H1 H2. constructor; assumption. }
    apply (n2 _ _ _ N Q). intros i ->. auto.
  - revert L. induction F as [|b c0 l c S F IH]; intros L H.
    + exists []. split; [|constructor]. apply (li_mono _ _ _ LI _ _) with (2 := H 1 Rlt_0_1). intros i Hi. inversion Hi. reflexivity.
    + destruct (IH (fun i => tl (L i))) as (Ls & N & FT).
      { intros e He. apply (li_mono _ _ _ LI _ _) with (2 := H e He). intros i Hi. inversion Hi. cbn. assumption. }
      exists ((fun i => hd dflt (L i)) :: Ls). split.
      * apply (n2 _ _ _ N (H 1 Rlt_0_1)). intros i E Hi. cbn [map]. rewrite <- E. inversion Hi. reflexivity.
      * constructor; [|exact FT]. apply (AG _ _ _ S). intros e He. apply (li_mono _ _ _ LI _ _) with (2 := H e He). intros i Hi. inversion Hi. cbn. assumption.
Qed.
Lemma agree_arr : agree (tarr I near T) (fun e => rel_arr (Rel e)) (rel_arr Same).
Proof.
  intros L [l|] [c|] S; cbn in S; try contradiction.
  - split.
    + intros (L' & N & H) e He. assert (Q := proj1 (agree_list L' l c S) H e He). apply (n2 _ _ _ N Q). intros i -> Hi. exact Hi.
    + intros H. exists (fun i => match L i with Some x => x | None => [] end). split.
      * apply (li_mono _ _ _ LI _ _) with (2 := H 1 Rlt_0_1). intros i Hi. destruct (L i); [reflexivity|destruct Hi].
      * apply (agree_list _ l c S). intros e He. apply (li_mono _ _ _ LI _ _) with (2 := H e He). intros i Hi. destruct (L i); [exact Hi|destruct Hi].
  - split.
    + intros H e He. apply (li_mono _ _ _ LI _ _) with (2 := H). intros i ->. exact Logic.I.
    + intros H. apply (li_mono _ _ _ LI _ _) with (2 := H 1 Rlt_0_1). intros i Hi. destruct (L i); [destruct Hi|reflexivity].
Qed.
End L.

Lemma agree_event : agree (tevent I near (TK I near)) (fun e => rel_event (near_num e)) (rel_event same_num).
Proof.
  intros E b c S. inversion S as [k a1 b1 c1 a2 b2 c2 acc Sa Sb Sc| |]; subst; cbn [tevent].
  - split.
    + intros (A & B & C & N & Ha & Hb & Hc) e He. assert (Qa := proj1 (agree_num _ _ _ Sa) Ha e He). assert (Qb := proj1 (agree_num _ _ _ Sb) Hb e He). assert (Qc := proj1 (agree_num _ _ _ Sc) Hc e He).
      apply (n2 _ _ _ N (li_and _ _ _ LI _ _ Qa (li_and _ _ _ LI _ _ Qb Qc))). intros i -> (H1 & H2 & H3). now constructor.
    + intros H. exists (fun i => match E i with EvProgress _ a _ _ _ => a | _ => NaN end), (fun i => match E i with EvProgress _ _ a _ _ => a | _ => NaN end), (fun i => match E i with EvProgress _ _ _ a _ => a | _ => NaN end).
      split; [apply (li_mono _ _ _ LI _ _) with (2 := H 1 Rlt_0_1); intros i Hi; inversion Hi; subst; reflexivity|].
      split; [apply (agree_num _ _ _ Sa)|split; [apply (agree_num _ _ _ Sb)|apply (agree_num _ _ _ Sc)]]; intros e He; apply (li_mono _ _ _ LI _ _) with (2 := H e He); intros i Hi; inversion Hi; assumption.
  - split.
    + intros H e He. apply (li_mono _ _ _ LI _ _) with (2 := H). intros i ->. constructor.
    + intros H. apply (li_mono _ _ _ LI _ _) with (2 := H 1 Rlt_0_1). intros i Hi. inversion Hi. reflexivity.
  - split.
    + intros H e He. apply (li_mono _ _ _ LI _ _) with (2 := H). intros i ->. constructor.
    + intros H. apply (li_mono _ _ _ LI _ _) with (2 := H 1 Rlt_0_1). intros i Hi. inversion Hi. reflexivity.
Qed.

Variables n m : nat.
Lemma agree_inst : agree (tinst I near (TV I near n) (TV I near m) (TK I near) (TP I near))
  (fun e => rel_inst (near_vec n e) (near_vec m e) (near_num e) (near_step e)) (rel_inst (same_vec n) (same_vec m) same_num same_step).
Proof.
  intros S s t [S1 S2 S3 S4 S5 S6 S7 S8 S9].
  assert (Q1 := agree_arr NaN _ _ _ agree_num (fun i => i_logPi (S i)) _ _ S1).
  assert (Q2 := agree_arr NaN _ _ _ agree_num (fun i => i_L2s (S i)) _ _ S2).
  assert (Q3 := agree_arr NaN _ _ _ agree_num (fun i => i_priors (S i)) _ _ S3).
  assert (Q4 := agree_arr [] _ _ _ (agree_vec m) (fun i => i_preds (S i)) _ _ S4).
  assert (Q5 := agree_arr [] _ _ _ (agree_vec n) (fun i => i_chain (S i)) _ _ S5).
  assert (Q7 := agree_arr NaN _ _ _ agree_step (fun i => i_deltas (S i)) _ _ S7).
  assert (Q8 := agree_step (fun i => i_delta (S i)) _ _ S8).
  assert (Q9 := agree_list EvDone _ _ _ agree_event (fun i => i_out (S i)) _ _ S9).
  split.
  - intros [T1 T2 T3 T4 T5 T6 T7 T8 T9] e He.
    assert (N1 := proj1 Q1 T1 e He). assert (N2 := proj1 Q2 T2 e He). assert (N3 := proj1 Q3 T3 e He). assert (N4 := proj1 Q4 T4 e He). assert (N5 := proj1 Q5 T5 e He).
    assert (N7 := proj1 Q7 T7 e He). assert (N8 := proj1 Q8 T8 e He). assert (N9 := proj1 Q9 T9 e He).
    apply (n2 _ _ _ (li_and _ _ _ LI _ _ N1 (li_and _ _ _ LI _ _ N2 (li_and _ _ _ LI _ _ N3 N4))) (li_and _ _ _ LI _ _ N5 (li_and _ _ _ LI _ _ T6 (li_and _ _ _ LI _ _ N7 (li_and _ _ _ LI _ _ N8 N9))))).
    intros i (A1 & A2 & A3 & A4) (A5 & A6 & A7 & A8 & A9). constructor; auto. congruence.
  - intros H. constructor.
    + apply Q1. intros e He. apply (li_mono _ _ _ LI _ _) with (2 := H e He). intros i [? ? ? ? ? ? ? ? ?]. assumption.
    + apply Q2. intros e He. apply (li_mono _ _ _ LI _ _) with (2 := H e He). intros i [? ? ? ? ? ? ? ? ?]. assumption.
    + apply Q3. intros e He. apply (li_mono _ _ _ LI _ _) with (2 := H e He). intros i [? ? ? ? ? ? ? ? ?]. assumption.
    + apply Q4. intros e He. apply (li_mono _ _ _ LI _ _) with (2 := H e He). intros i [? ? ? ? ? ? ? ? ?]. assumption.
    + apply Q5. intros e He. apply (li_mono _ _ _ LI _ _) with (2 := H e He). intros i [? ? ? ? ? ? ? ? ?]. assumption.
    + apply (li_mono _ _ _ LI _ _) with (2 := H 1 Rlt_0_1). intros i [? ? ? ? ? ? ? ? ?]. congruence.
    + apply Q7. intros e He. apply (li_mono _ _ _ LI _ _) with (2 := H e He). intros i [? ? ? ? ? ? ? ? ?]. assumption.
    + apply Q8. intros e He. apply (li_mono _ _ _ LI _ _) with (2 := H e He). intros i [? ? ? ? ? ? ? ? ?]. assumption.
    + apply Q9. intros e He. apply (li_mono _ _ _ LI _ _) with (2 := H e He). intros i [? ? ? ? ? ? ? ? ?]. assumption.
Qed.
Context {G : Type}.
Lemma agree_world : agree (tworld I near (TV I near n) (TV I near m) (TK I near) (TP I near)) (fun e => @near_world G n m e) (rel_world (same_vec n) (same_vec m) same_num same_step eq).
Proof.
  intros w v v0 (S & SG). assert (Q := agree_inst (fun i => w_inst (w i)) _ _ S). split.
  - intros (T & TG) e He. apply (n2 _ _ _ (proj1 Q T e He) TG). intros i H1 H2. split; [exact H1|congruence].
  - intros H. split.
    + apply Q. intros e He. apply (li_mono _ _ _ LI _ _) with (2 := H e He). intros i (A & _). exact A.
    + apply (li_mono _ _ _ LI _ _) with (2 := H 1 Rlt_0_1). intros i (_ & A). congruence.
Qed.
Lemma near_runs : forall r s t, tat I near (TV I near n) (TV I near m) (TK I near) (TP I near) (same I near) r s ->
  rel_run (same_vec n) (same_vec m) same_num same_step eq s t -> forall e, 0 < e -> near (fun i => @near_run G n m e (r i) t).
Proof.
  intros r s t (TW & TO) (SW & SO) e He. assert (Q := proj1 (agree_world _ _ _ SW) TW e He).
  assert (O : near (fun i => snd (r i) = snd s)).
  { destruct (snd s) as [[]|ex|]; cbn in TO; [|exact TO|exact TO]. destruct TO as (a & N & _). apply (li_mono _ _ _ LI _ _) with (2 := N). intros i ->. now destruct (a i). }
  apply (n2 _ _ _ Q O). intros i H1 H2. split; [exact H1|congruence].
Qed.
Lemma near_TI : forall a b c, same_start n b c -> (forall e, 0 < e -> near (fun i => near_start n e (a i) c)) -> TI I near a b.
Proof.
  intros a [x|] [|shape buf|] S H; cbn in S; try contradiction.
  - destruct S as (-> & S). cbn [TI]. exists (fun i => match a i with Some y => y | None => [] end), n. split.
    + apply (li_mono _ _ _ LI _ _) with (2 := H 1 Rlt_0_1). intros i Hi. destruct (a i); [reflexivity|destruct Hi].
    + apply (agree_vec n _ _ _ S). intros e He. apply (li_mono _ _ _ LI _ _) with (2 := H e He). intros i Hi. destruct (a i); cbn in Hi; [apply Hi|destruct Hi].
  - cbn. apply (li_mono _ _ _ LI _ _) with (2 := H 1 Rlt_0_1). intros i Hi. destruct (a i); [destruct Hi|reflexivity].
Qed.
End Agree.
