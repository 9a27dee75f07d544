(** Reordering the model parameters. *)
From Coq Require Import List ZArith Lia Bool Reals Lra Permutation.
From Coquelicot Require Import Coquelicot.
From Verif Require Import PyBase PyBaseFacts CVec Forward FwdProof RSort Prior Mcmc StepProof Sampler ParamSpec ParamProof RepSpec.
Import ListNotations.
Open Scope R_scope.

Section P.
Variable n : nat.
Variable sigma : nat -> nat.
Hypothesis HS : is_permutation n sigma.
Notation rr x := (reorder n sigma (RtoC 0) x).

Lemma sigma_lt i : (i < n)%nat -> (sigma i < n)%nat.
Proof.
  intros H. assert (In (sigma i) (seq 0 n)) by (eapply Permutation_in; [exact HS|apply in_map, in_seq; lia]).
  apply in_seq in H0. lia.
Qed.
Lemma reorder_length {A} (z : A) x : List.length (reorder n sigma z x) = n.
Proof. unfold reorder. now rewrite map_length, seq_length. Qed.
Lemma reorder_map {A B} (z : A) (y : B) (h : A -> B) x : List.length x = n ->
  reorder n sigma y (map h x) = map h (reorder n sigma z x).
Proof.
  intros L. unfold reorder. rewrite map_map. apply map_ext_in. intros i Hi. apply in_seq in Hi.
  rewrite (nth_indep (map h x) y (h z)); [apply map_nth|]. rewrite map_length, L. apply sigma_lt. lia.
Qed.
Lemma nth_map2 {A B D} (op : A -> B -> D) z a b x y i : (i < List.length x)%nat -> List.length x = List.length y ->
  nth i (map2 op x y) z = op (nth i x a) (nth i y b).
Proof.
  revert y i. induction x as [|p x IH]; intros [|q y] i Hi L; cbn in *; try lia. destruct i; [reflexivity|]. apply IH; lia.
Qed.
Lemma reorder_map2 {A B D} (op : A -> B -> D) z a b x y : List.length x = n -> List.length y = n ->
  reorder n sigma z (map2 op x y) = map2 op (reorder n sigma a x) (reorder n sigma b y).
Proof.
  intros Lx Ly. unfold reorder. rewrite map2_map_same. apply map_ext_in. intros i Hi. apply in_seq in Hi.
  apply nth_map2; [rewrite Lx; apply sigma_lt; lia|congruence].
Qed.
Lemma map_nth_id {A} (z : A) x : List.length x = n -> map (fun i => nth i x z) (seq 0 n) = x.
Proof.
  intros L. subst n. clear HS. induction x as [|a x IH]; [reflexivity|]. cbn [List.length seq map nth]. f_equal. rewrite <- seq_shift, map_map. exact IH.
Qed.
Lemma reorder_perm {A} (z : A) x : List.length x = n -> Permutation (reorder n sigma z x) x.
Proof.
  intros L. unfold reorder. rewrite <- (map_map sigma (fun i => nth i x z)).
  apply Permutation_trans with (map (fun i => nth i x z) (seq 0 n)); [apply Permutation_map; exact HS|].
  now rewrite (map_nth_id z x L).
Qed.
Lemma csum_perm l m : Permutation l m -> csum l = csum m.
Proof.
  intros H. induction H; cbn; [reflexivity|unfold csum in *; now rewrite IHPermutation| |congruence].
  unfold csum. cbn. rewrite !Cplus_assoc. f_equal. apply Cplus_comm.
Qed.

Notation rv := (rv n sigma).

Lemma rv_add x y x' y' : rv x x' -> rv y y' -> rel_res rv (np_add x y) (np_add x' y').
Proof.
  intros (Lx & ->) (Ly & ->). rewrite !np_add_same by (rewrite ?reorder_length; congruence). cbn. split.
  - unfold vadd. rewrite CVec.map2_length; congruence.
  - unfold vadd. symmetry. now apply reorder_map2.
Qed.
Lemma rv_sub x y x' y' : rv x x' -> rv y y' -> rel_res rv (np_sub x y) (np_sub x' y').
Proof.
  intros (Lx & ->) (Ly & ->). rewrite !np_sub_same by (rewrite ?reorder_length; congruence). cbn. split.
  - unfold vsub. rewrite CVec.map2_length; congruence.
  - unfold vsub. symmetry. now apply reorder_map2.
Qed.
Lemma rv_map h x x' : rv x x' -> rv (map h x) (map h x').
Proof. intros (L & ->). split; [now rewrite map_length|]. symmetry. now apply reorder_map. Qed.
Lemma rel_bind {A B A' B'} (R : A -> B -> Prop) (R' : A' -> B' -> Prop) r s k l :
  rel_res R r s -> (forall a b, R a b -> rel_res R' (k a) (l b)) -> rel_res R' (rbind r k) (rbind s l).
Proof. destruct r, s; cbn; intros H HK; try contradiction; auto. Qed.
Lemma rel_refl {A} (r : res A) : rel_res eq r r.
Proof. destruct r; reflexivity. Qed.

Context {G : Type}.
Variable R0 R1 : rng G.
Variable F F' : forward_op.
Variable pr pr' : prior_obj.
Hypothesis HR : reordered n sigma R0 R1 F F' pr pr'.
Variable q : numparams.

Lemma rd_fwd x y : rv x y -> rel_res eq (fo_forward F x) (fo_forward F' y).
Proof. intros (L & ->). rewrite (rd_forward _ _ _ _ _ _ _ _ HR x L). apply rel_refl. Qed.
Lemma rd_gr d : rel_res rv (fo_gradg F d) (fo_gradg F' d).
Proof. pose proof (rd_gradg _ _ _ _ _ _ _ _ HR d) as H. destruct (fo_gradg F d); [destruct H as (H & ->)|rewrite H]; cbn; [split; auto|reflexivity]. Qed.
Lemma rd_px x y : rv x y -> rel_res rv (pr_proxf pr x) (pr_proxf pr' y).
Proof.
  intros (L & ->). pose proof (rd_proxf _ _ _ _ _ _ _ _ HR x L) as H.
  destruct (pr_proxf pr x); [destruct H as (H & ->)|rewrite H]; cbn; [split; auto|reflexivity].
Qed.

Lemma rd_draw (h h' : nat -> G -> list R * G) g :
  (forall g, List.length (fst (h n g)) = n) -> (forall g, h' n g = (reorder n sigma 0 (fst (h n g)), snd (h n g))) ->
  rv (fst (draw h (n_complex q) n g)) (fst (draw h' (n_complex q) n g)) /\
  snd (draw h (n_complex q) n g) = snd (draw h' (n_complex q) n g).
Proof.
  intros L E. unfold draw. rewrite E. pose proof (L g) as L1. destruct (h n g) as [a g1]. cbn [fst snd] in *. destruct (n_complex q).
  - rewrite E. pose proof (L g1) as L2. destruct (h n g1) as [b g2]. cbn [fst snd] in *. split; [|reflexivity]. split.
    + unfold vcomplex. rewrite CVec.map2_length; congruence.
    + unfold vcomplex. symmetry. now apply reorder_map2.
  - cbn [fst snd]. split; [|reflexivity]. split; [now rewrite map_length|]. symmetry. now apply reorder_map.
Qed.
Lemma rd_logpi x y d : rv x y -> rel_res (rel_tri eq) (logpi F pr q x d) (logpi F' pr' q y d).
Proof.
  intros (L & ->). unfold logpi. rewrite (rd_data _ _ _ _ _ _ _ _ HR), (rd_cov _ _ _ _ _ _ _ _ HR), (rd_prior _ _ _ _ _ _ _ _ HR x L).
  destruct (np_sub _ d) as [df|]; cbn; [|reflexivity]. destruct (np_dot _ df) as [wd|]; cbn; [|reflexivity].
  destruct (np_vdot df wd); cbn; [|reflexivity]. destruct (pr_prior pr x); cbn; [|reflexivity]. repeat split.
Qed.
Lemma rd_step d x x' y y' z z' g : rv x x' -> rv y y' -> rv z z' ->
  rel_drawn eq rv (chain_step R0 F q d x y z g) (chain_step R1 F' q d x' y' z' g).
Proof.
  intros Hx Hy Hz. unfold chain_step. rewrite (rd_n _ _ _ _ _ _ _ _ HR), (rd_n' _ _ _ _ _ _ _ _ HR).
  destruct (rd_draw (g_randn R0) (g_randn R1) g) as (W1 & W2).
  { intros g0. apply (rd_len _ _ _ _ _ _ _ _ HR). } { apply (rd_randn _ _ _ _ _ _ _ _ HR). }
  destruct (draw (g_randn R0) _ n g) as [w g1], (draw (g_randn R1) _ n g) as [w' g1']. cbn [fst snd] in *. split; cbn [fst snd]; [|exact W2].
  destruct (Req_EM_T (n_lmda q) 0); [reflexivity|].
  eapply rel_bind; [apply rv_add; apply rv_map; eassumption|]. intros a a' Ha.
  eapply rel_bind; [apply rv_sub; [exact Ha|apply rv_map, Hz]|]. intros b b' Hb. apply rv_add; [exact Hb|apply rv_map, W1].
Qed.
Lemma rd_logtrans d x x' y y' z z' t t' : rv x x' -> rv y y' -> rv z z' -> rv t t' ->
  rel_res eq (logtransition q d x y z t) (logtransition q d x' y' z' t').
Proof.
  intros Hx Hy Hz Ht. unfold logtransition.
  eapply rel_bind; [apply rv_sub; eassumption|]. intros a a' Ha.
  eapply rel_bind; [apply rv_sub; [apply rv_map, rv_map, Ha|exact Ht]|]. intros b b' Hb.
  eapply rel_bind; [apply rv_sub; eassumption|]. intros c c' Hc.
  eapply rel_bind; [apply rv_sub; [exact Hc|apply rv_map, Hb]|]. intros r r' (Lr & ->). cbn.
  rewrite (csum_perm (map (fun z0 => (z0 * z0)%C) (rr r)) (map (fun z0 => (z0 * z0)%C) r)); [reflexivity|].
  apply Permutation_map. now apply reorder_perm.
Qed.
Lemma rd_gradlogpi x y : rv x y -> rel_res rv (gradlogpi F pr q x None) (gradlogpi F' pr' q y None).
Proof.
  intros H. unfold gradlogpi. eapply rel_bind; [apply rd_px, H|]. intros p p' Hp.
  eapply rel_bind; [apply rv_sub; [exact H|exact Hp]|]. intros d d' Hd.
  eapply rel_bind; [apply rd_fwd, H|]. intros e e' <-. eapply rel_bind; [apply rd_gr|]. intros g g' Hg.
  apply rv_sub; [apply rv_map, rv_map, Hd|exact Hg].
Qed.
Lemma rd_K d x x' z z' : rv x x' -> rv z z' -> forall s,
  rel_res rv (K_recursion F pr q d x s z) (K_recursion F' pr' q d x' s z').
Proof.
  intros Hx Hz. assert (A : forall s, rel_res rv (K_recursion F pr q d x s z) (K_recursion F' pr' q d x' s z') /\
    rel_res rv (K_recursion F pr q d x (S s) z) (K_recursion F' pr' q d x' (S s) z')); [|intros s; apply A].
  induction s as [|s (IH1 & IH2)].
  - split; [exact Hx|]. cbn [K_recursion]. eapply rel_bind; [apply rel_refl|]. intros [[mu nu] k] c <-.
    eapply rel_bind; [apply rv_add; [exact Hx|apply rv_map, Hz]|]. intros y y' Hy.
    eapply rel_bind; [apply rd_gradlogpi, Hy|]. intros g g' Hg.
    eapply rel_bind; [apply rv_add; [exact Hx|apply rv_map, Hg]|]. intros a a' Ha. apply rv_add; [exact Ha|apply rv_map, Hz].
  - split; [exact IH2|]. cbn [K_recursion] in *. eapply rel_bind; [apply rel_refl|]. intros [[mu nu] k] c <-.
    eapply rel_bind; [exact IH2|]. intros k1 k1' H1. eapply rel_bind; [apply rd_gradlogpi, H1|]. intros g g' Hg.
    eapply rel_bind; [apply rv_add; apply rv_map; eassumption|]. intros a a' Ha.
    eapply rel_bind; [exact IH1|]. intros k2 k2' H2. apply rv_sub; [apply rv_map, Ha|exact H2].
Qed.
Lemma rd_skstep d x x' g : rv x x' -> rel_drawn eq rv (skrock_step R0 F pr q d x g) (skrock_step R1 F' pr' q d x' g).
Proof.
  intros Hx. unfold skrock_step. destruct Hx as (L & ->). rewrite reorder_length, L.
  destruct (rd_draw (g_randn R0) (g_randn R1) g) as (W1 & W2).
  { intros g0. apply (rd_len _ _ _ _ _ _ _ _ HR). } { apply (rd_randn _ _ _ _ _ _ _ _ HR). }
  destruct (draw (g_randn R0) _ n g) as [w g1], (draw (g_randn R1) _ n g) as [w' g1']. cbn [fst snd] in *. split; cbn [fst snd]; [|exact W2].
  apply rd_K; [split; auto|exact W1].
Qed.

Lemma rd_ops : rel_ops rv eq eq eq eq (rstart n sigma) (mcmc_ops R0 F pr q) (mcmc_ops R1 F' pr' q).
Proof.
  pose proof (rd_n _ _ _ _ _ _ _ _ HR) as N1. pose proof (rd_n' _ _ _ _ _ _ _ _ HR) as N2.
  constructor; cbn.
  - intros i i' g g' Hi <-. unfold choose_start. rewrite N1, N2. destruct i as [|s b|], i' as [|s' b'|]; try contradiction.
    + destruct (rd_draw (g_laplace R0) (g_laplace R1) g) as (W1 & W2).
      { intros g0. apply (rd_len _ _ _ _ _ _ _ _ HR). } { apply (rd_laplace _ _ _ _ _ _ _ _ HR). }
      destruct (draw (g_laplace R0) _ n g) as [w g1], (draw (g_laplace R1) _ n g) as [w' g1']. split; assumption.
    + destruct Hi as (<- & Hb). destruct (negb _); [split; reflexivity|]. destruct Hb as [(L & ->)|(L & ->)].
      * rewrite reorder_length, L, Nat.eqb_refl. split; [split; auto|reflexivity].
      * apply Nat.eqb_neq in L. rewrite L. split; reflexivity.
    + split; reflexivity.
  - apply rd_fwd.
  - intros d e <-. apply rd_gr.
  - apply rd_px.
  - intros x y d e H <-. now apply rd_logpi.
  - intros p p' x x' y y' z z' g g' <- Hx Hy Hz <-. now apply rd_step.
  - intros p p' x x' y y' z z' t t' <- Hx Hy Hz Ht. now apply rd_logtrans.
  - intros g g' <-. unfold logrand. rewrite (rd_rand _ _ _ _ _ _ _ _ HR). destruct (g_rand R0 g). split; reflexivity.
  - intros; congruence.
  - intros; congruence.
  - intros; congruence.
  - intros; congruence.
  - rewrite N1, N2. cbn. intros x y (L & ->). unfold store_row. rewrite reorder_length, L, Nat.eqb_refl. cbn. apply rv_map. split; auto.
  - rewrite (rd_data _ _ _ _ _ _ _ _ HR). intros x y <-. apply rel_refl.
  - intros a b <-. reflexivity.
  - rewrite N1, N2. cbn. unfold vzero. split; [apply repeat_length|]. unfold reorder.
    rewrite <- (map_nth_id (RtoC 0) (repeat (RtoC 0) n)) at 1 by apply repeat_length.
    apply map_ext. intros i. now rewrite !nth_repeat.
  - now rewrite (rd_data _ _ _ _ _ _ _ _ HR).
  - reflexivity.
Qed.
End P.
