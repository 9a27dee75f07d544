(** Accurate arithmetic, a nearby start and a nearby world: the index of the
    families of C66. *)
From Coq Require Import List ZArith Lia Bool Reals Lra Psatz.
From Coquelicot Require Import Coquelicot.
From Verif Require Import PyBase PyBaseFacts CVec Forward Prior Mcmc Sampler ParamSpec RepSpec ParamProof Ieee IeeeProof ExactProof RoundProof FloatOps FloatProof FloatSk FloatSkProof
  LimProof LimOps LimRun LimTie LimInst LimSpec LimEnd P_Param P_FloatNear P_FloatSk P_Mcmc.
Import ListNotations.
Notation length := List.length.
Open Scope R_scope.

Lemma near_vec_mono n e e' x y : e <= e' -> near_vec n e x y -> near_vec n e' x y.
Proof. intros H (v & w & E1 & E2 & L1 & L2 & D). exists v, w. repeat (split; [auto|]). intros k Hk. specialize (D k Hk). lra. Qed.
Lemma near_num_mono e e' x y : e <= e' -> near_num e x y -> near_num e' x y.
Proof. intros H (r & s & E1 & E2 & D). exists r, s. repeat (split; [auto|]). lra. Qed.
Lemma near_step_mono e e' x y : e <= e' -> near_step e x y -> near_step e' x y.
Proof. intros H (P & r & E & D). split; [exact P|]. exists r. split; [auto|lra]. Qed.
Lemma f2_mono {A B} (P Q : A -> B -> Prop) : (forall a b, P a b -> Q a b) -> forall l m, Forall2 P l m -> Forall2 Q l m.
Proof. intros H l m F. induction F; constructor; auto. Qed.
Lemma arr_mono {A B} (P Q : A -> B -> Prop) : (forall a b, P a b -> Q a b) -> forall l m, rel_arr P l m -> rel_arr Q l m.
Proof. intros H [l|] [m|]; cbn; auto. now apply f2_mono. Qed.
Lemma near_world_mono {G} n m e e' (w : world fvec fvec float float G) v : e <= e' -> near_world n m e w v -> near_world n m e' w v.
Proof.
  intros H ([H1 H2 H3 H4 H5 H6 H7 H8 H9] & HG). split; [|exact HG]. constructor; auto.
  - revert H1. apply arr_mono. intros a b. now apply near_num_mono.
  - revert H2. apply arr_mono. intros a b. now apply near_num_mono.
  - revert H3. apply arr_mono. intros a b. now apply near_num_mono.
  - revert H4. apply arr_mono. intros a b. now apply near_vec_mono.
  - revert H5. apply arr_mono. intros a b. now apply near_vec_mono.
  - revert H7. apply arr_mono. intros a b. now apply near_step_mono.
  - revert H8. now apply near_step_mono.
  - revert H9. apply f2_mono. intros a b [k a1 b1 c1 a2 b2 c2 acc Ha Hb Hc| |]; constructor; now apply (near_num_mono e).
Qed.
Lemma near_start_mono n e e' i j : e <= e' -> near_start n e i j -> near_start n e' i j.
Proof. intros H. destruct i, j; cbn; auto. intros (A & B). split; [auto|]. now apply (near_vec_mono n e). Qed.

(** a world near that of the real-number model: the latter is real *)
Lemma f2_ex {A B C} (P : A -> C -> Prop) (Q : B -> C -> Prop) : (forall a c, P a c -> exists b, Q b c) -> forall l m, Forall2 P l m -> exists l', Forall2 Q l' m.
Proof.
  intros H l m F. induction F as [|a c l m Hac F (l' & IH)]; [exists []; constructor|]. destruct (H a c Hac) as (b & Hb). exists (b :: l'). now constructor.
Qed.
Lemma arr_ex {A B C} (P : A -> C -> Prop) (Q : B -> C -> Prop) : (forall a c, P a c -> exists b, Q b c) -> forall l m, rel_arr P l m -> exists l', rel_arr Q l' m.
Proof.
  intros H [l|] [m|] F; cbn in F; try contradiction; [|exists None; exact I]. destruct (f2_ex P Q H l m F) as (l' & F'). exists (Some l'). exact F'.
Qed.
Lemma vec_ex n e x y : near_vec n e x y -> exists x', same_vec n x' y.
Proof. intros (v & w & _ & -> & _ & L & _). exists (map Fin w), w. auto. Qed.
Lemma num_ex e x y : near_num e x y -> exists x', same_num x' y.
Proof. intros (v & w & _ & -> & _). exists (Fin w), w. auto. Qed.
Lemma step_ex e x y : near_step e x y -> exists x', same_step x' y.
Proof. intros (P & _). exists (Fin y). split; auto. Qed.
Lemma world_ex {G} n m e (w : world fvec fvec float float G) v : near_world n m e w v -> exists v', rel_world (same_vec n) (same_vec m) same_num same_step eq v' v.
Proof.
  intros ([H1 H2 H3 H4 H5 H6 H7 H8 H9] & _).
  destruct (arr_ex _ same_num (num_ex e) _ _ H1) as (a1 & A1). destruct (arr_ex _ same_num (num_ex e) _ _ H2) as (a2 & A2). destruct (arr_ex _ same_num (num_ex e) _ _ H3) as (a3 & A3).
  destruct (arr_ex _ (same_vec m) (vec_ex m e) _ _ H4) as (a4 & A4). destruct (arr_ex _ (same_vec n) (vec_ex n e) _ _ H5) as (a5 & A5).
  destruct (arr_ex _ same_step (step_ex e) _ _ H7) as (a7 & A7). destruct (step_ex _ _ _ H8) as (a8 & A8).
  assert (EX : forall a c, rel_event (near_num e) a c -> exists b, rel_event same_num b c).
  { intros a c [k x1 y1 z1 x2 y2 z2 acc Ha Hb Hc| |]; [|exists EvBurning; constructor|exists EvDone; constructor].
    destruct (num_ex _ _ _ Ha) as (x & X), (num_ex _ _ _ Hb) as (y & Y), (num_ex _ _ _ Hc) as (z & Z). exists (EvProgress k x y z acc). now constructor. }
  destruct (f2_ex _ _ EX _ _ H9) as (a9 & A9).
  exists (mkWorld (mkInst a1 a2 a3 a4 a5 (i_acc (w_inst v)) a7 a8 a9) (w_rng v)). split; [constructor; auto|reflexivity].
Qed.
Lemma start_ex n e i j : near_start n e i j -> exists i', same_start n i' j.
Proof.
  destruct i as [x|], j as [|shape buf|]; cbn; try contradiction; [intros (-> & H)|intros _; exists None; exact I].
  destruct (vec_ex _ _ _ _ H) as (x' & X). exists (Some x'). split; auto.
Qed.
Lemma vec_near n e x y : 0 <= e -> same_vec n x y -> near_vec n e x y.
Proof. intros He (v & L & -> & ->). exists v, v. repeat (split; [auto|]). intros k Hk. rewrite Rminus_diag_eq, Rabs_R0 by reflexivity. exact He. Qed.
Lemma num_near e x y : 0 <= e -> same_num x y -> near_num e x y.
Proof. intros He (v & -> & ->). exists v, v. repeat (split; [auto|]). rewrite Rminus_diag_eq, Rabs_R0 by reflexivity. exact He. Qed.
Lemma step_near0 e x y : 0 <= e -> same_step x y -> near_step e x y.
Proof. intros He (-> & H). split; [exact H|]. exists y. split; [auto|]. rewrite Rminus_diag_eq, Rabs_R0 by reflexivity. exact He. Qed.
Lemma world_near {G} n m e (w : world fvec fvec float float G) v : 0 <= e -> rel_world (same_vec n) (same_vec m) same_num same_step eq w v -> near_world n m e w v.
Proof.
  intros He ([H1 H2 H3 H4 H5 H6 H7 H8 H9] & HG). split; [|exact HG]. constructor; auto.
  - revert H1. apply arr_mono. intros a b. now apply num_near.
  - revert H2. apply arr_mono. intros a b. now apply num_near.
  - revert H3. apply arr_mono. intros a b. now apply num_near.
  - revert H4. apply arr_mono. intros a b. now apply vec_near.
  - revert H5. apply arr_mono. intros a b. now apply vec_near.
  - revert H7. apply arr_mono. intros a b. now apply step_near0.
  - now apply step_near0.
  - revert H9. apply f2_mono. intros a b [k a1 b1 c1 a2 b2 c2 acc Ha Hb Hc| |]; constructor; now apply num_near.
Qed.
Lemma start_near n e i j : 0 <= e -> same_start n i j -> near_start n e i j.
Proof. intros He. destruct i, j; cbn; auto. intros (A & B). split; [auto|]. now apply vec_near. Qed.

Section Setting.
Context {G : Type}.
Variables (n m : nat) (start0 : start_point) (v0 : world vec vec C R G).
Record setting := mkSetting { st_rnd : R -> float; st_start : option fvec; st_world : world fvec fvec float float G }.
Definition close_to (d : R) (i : setting) : Prop :=
  accurate (st_rnd i) (/ d) d /\ near_start n d (st_start i) start0 /\ near_world n m d (st_world i) v0.
Definition nearby (P : setting -> Prop) : Prop := exists d, 0 < d /\ forall i, close_to d i -> P i.

Lemma close_mono d d' i : 0 < d -> d <= d' -> close_to d i -> close_to d' i.
Proof.
  intros H1 H2 ((A0 & A) & B & C). split; [|split; [now apply (near_start_mono n d)|now apply (near_world_mono n m d)]].
  split; [lra|]. intros x Hx. destruct (A x) as (y & E & D). { apply Rle_trans with (1 := Hx). apply Rinv_le_contravar; lra. } exists y. split; [auto|lra].
Qed.
Lemma nearby_limit : limit setting nearby st_rnd.
Proof.
  constructor.
  - intros P H. exists 1. split; [lra|auto].
  - intros P Q (d & Hd & H) (d' & Hd' & H'). exists (Rmin d d'). assert (0 < Rmin d d') by now apply Rmin_glb_lt. split; [auto|]. intros i C. split.
    + apply H. apply (close_mono (Rmin d d')); auto. apply Rmin_l.
    + apply H'. apply (close_mono (Rmin d d')); auto. apply Rmin_r.
  - intros P Q H (d & Hd & HP). exists d. auto.
  - intros M e He. set (k := / (Rabs M + 1)). assert (MP := Rabs_pos M). assert (HK : 0 < k) by (apply Rinv_0_lt_compat; lra).
    exists (Rmin e k). assert (0 < Rmin e k) by now apply Rmin_glb_lt. split; [auto|]. intros i ((_ & A) & _). split; [lra|]. intros x Hx.
    destruct (A x) as (y & E & D).
    { apply Rle_trans with (/ k); [unfold k; rewrite Rinv_inv; assert (Q := Rle_abs M); lra|]. apply Rinv_le_contravar; [auto|apply Rmin_r]. }
    exists y. split; [auto|]. assert (Q := Rmin_l e k). lra.
Qed.
Variables (start1 : option fvec) (v1 : world fvec fvec float float G).
Hypothesis HS : same_start n start1 start0.
Hypothesis HV : rel_world (same_vec n) (same_vec m) same_num same_step eq v1 v0.
Lemma nearby_inhabited : forall P, nearby P -> exists i, P i.
Proof.
  intros P (d & Hd & H). exists (mkSetting Fin start1 v1). apply H. split; [|split; [apply start_near; [lra|exact HS]|apply world_near; [lra|exact HV]]].
  split; [lra|]. intros x _. exists x. split; [reflexivity|]. rewrite Rminus_diag_eq, Rabs_R0 by reflexivity. lra.
Qed.
Lemma setting_start : forall e, 0 < e -> nearby (fun i => near_start n e (st_start i) start0).
Proof. intros e He. exists e. split; [exact He|]. intros i (_ & H & _). exact H. Qed.
Lemma setting_world : forall e, 0 < e -> nearby (fun i => near_world n m e (st_world i) v0).
Proof. intros e He. exists e. split; [exact He|]. intros i (_ & _ & H). exact H. Qed.
End Setting.

(** the exact coefficients exist from one stage on *)
Lemma exact_coefs : forall s, (1 <= s)%Z -> forall k, (1 <= k <= Z.to_nat s)%nat -> exists c, f_coef Fin s k = Ok c.
Proof.
  intros s Hs k Hk. set (q := mkNum 1 1 s false). destruct (proj2 (proj2 (C16_construction q)) ltac:(cbn; lia)) as (l & E & _).
  assert (Q := C65_exact_coefficients q). rewrite E in Q. cbn [n_s q] in Q. destruct (f_skrock_init Fin s) as [L|] eqn:EL; [|destruct Q].
  unfold f_skrock_init in EL. destruct (s =? 0)%Z; [discriminate|]. destruct (s <? 0)%Z; [discriminate|].
  clear - EL Hk. assert (HI : In k (seq 0 (Z.to_nat s + 1))) by (apply in_seq; lia). revert L EL HI. generalize (seq 0 (Z.to_nat s + 1)).
  induction l as [|a l IH]; intros L EL HI; [destruct HI|]. cbn [map rseq] in EL. destruct (f_coef Fin s a) as [c|] eqn:Ec; [|discriminate]. cbn [rbind] in EL.
  destruct (rseq (map (f_coef Fin s) l)) as [L'|] eqn:E'; [|discriminate]. destruct HI as [-> | HI]; [eauto|now apply (IH L')].
Qed.
