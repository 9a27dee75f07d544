(** C67: the step sizes at which the samplers are stable for path integrals with
    the L1 prior, computed from the path matrix and the errors. *)
From Coq Require Import List ZArith Lia Bool Reals Lra Psatz String.
From Coquelicot Require Import Coquelicot.
From Verif Require Import PyBase PyBaseFacts CVec OpSpec McmcSpec FwdProof Measure Forward Prior Mcmc Sampler SamplerSpec SamplerFacts SamplerThms StepProof StableProof SkDivProof ParamSpec RepSpec
  Ieee IeeeProof ExactProof RoundProof FloatOps FloatProof FloatNear FloatSk P_Samplers P_Works P_Round P_Stable P_Moments P_SkDiv P_FloatNear P_FloatSkB LimSpec LimSet P_Limit.
Import ListNotations.
Notation length := List.length.
Open Scope R_scope.

(** ** The quantities *)
(** the length of path i in pixel j: entries stored twice count twice *)
Definition crossing (W : list (list (nat * R))) (i j : nat) : R :=
  rsum (map snd (filter (fun p => Nat.eqb (fst p) j) (nth i W []))).
(** the length of path i *)
Definition path_length (n : nat) (W : list (list (nat * R))) (i : nat) : R := rsum (map (fun j => Rabs (crossing W i j)) (seq 0 n)).
(** the weighted length of the paths through pixel j *)
Definition load (n : nat) (W : list (list (nat * R))) (ws : list R) (j : nat) : R :=
  rsum (map (fun i => nth i ws 0 * path_length n W i * Rabs (crossing W i j)) (seq 0 (length W))).

Lemma cauchy_weighted : forall (a : nat -> R) (z : nat -> C) l,
  Cmod (csum (map (fun j => RtoC (a j) * z j)%C l)) ^ 2 <= rsum (map (fun j => Rabs (a j)) l) * rsum (map (fun j => Rabs (a j) * Cmod (z j) ^ 2) l).
Proof.
  intros a z. induction l as [|j l IH].
  - cbn. rewrite Cmod_0. lra.
  - assert (Q1 : 0 <= rsum (map (fun j => Rabs (a j)) l)) by (apply rsum_nonneg; intros x Hx; apply in_map_iff in Hx; destruct Hx as (k & <- & _); apply Rabs_pos).
    assert (Q2 : 0 <= rsum (map (fun j => Rabs (a j) * Cmod (z j) ^ 2) l)).
    { apply rsum_nonneg. intros x Hx. apply in_map_iff in Hx. destruct Hx as (k & <- & _). apply Rmult_le_pos; [apply Rabs_pos|apply pow2_ge_0]. }
    cbn [map]. change (csum (?x :: ?l)) with (x + csum l)%C. change (rsum (?x :: ?l)) with (x + rsum l).
    set (s := csum _) in *. set (A := rsum (map (fun j => Rabs (a j)) l)) in *. set (B := rsum (map (fun j => Rabs (a j) * Cmod (z j) ^ 2) l)) in *.
    assert (T := Cmod_triangle (RtoC (a j) * z j)%C s). rewrite Cmod_mult, Cmod_R in T.
    set (u := Rabs (a j)) in *. set (v := Cmod (z j)) in *. set (c := Cmod s) in *.
    assert (U : 0 <= u) by apply Rabs_pos. assert (V : 0 <= v) by apply Cmod_ge_0. assert (S0 : 0 <= c) by apply Cmod_ge_0.
    assert (M : 2 * (c * v) <= A * v ^ 2 + B).
    { apply Rsqr_incr_0_var; [|assert (0 <= A * v ^ 2) by (apply Rmult_le_pos; [auto|apply pow2_ge_0]); lra]. unfold Rsqr.
      assert (H1 : (c ^ 2) * v ^ 2 <= A * B * v ^ 2) by (apply Rmult_le_compat_r; [apply pow2_ge_0|exact IH]).
      assert (H2 := pow2_ge_0 (A * v ^ 2 - B)).
      replace (2 * (c * v) * (2 * (c * v))) with (4 * (c ^ 2 * v ^ 2)) by ring.
      replace ((A * v ^ 2 + B) * (A * v ^ 2 + B)) with ((A * v ^ 2 - B) ^ 2 + 4 * (A * B * v ^ 2)) by ring. lra. }
    assert (E := pow_incr _ _ 2 (conj (Cmod_ge_0 _) T)). apply Rle_trans with (1 := E).
    assert (H3 := Rmult_le_compat_l u _ _ U M). replace ((u * v + c) ^ 2) with (u ^ 2 * v ^ 2 + u * (2 * (c * v)) + c ^ 2) by ring.
    replace ((u + A) * (u * v ^ 2 + B)) with (u ^ 2 * v ^ 2 + u * (A * v ^ 2 + B) + A * B) by ring. lra.
Qed.

Lemma rsum_exchange : forall (f : nat -> nat -> R) l m,
  rsum (map (fun i => rsum (map (fun j => f i j) m)) l) = rsum (map (fun j => rsum (map (fun i => f i j) l)) m).
Proof.
  intros f l m. induction l as [|i l IH].
  - cbn [map]. change (rsum []) with 0. symmetry. induction m as [|j m IHm]; [reflexivity|]. change (0 + rsum (map (fun _ : nat => 0) m) = 0). rewrite rsum_const. ring.
  - cbn [map]. change (rsum (?x :: ?t)) with (x + rsum t). rewrite IH, <- rsum_map_plus. reflexivity.
Qed.

(** *** the curvature of the data term is at most the largest load *)
Theorem C67_curvature : forall n W ys ws H, length ws = length W -> (forall w, In w ws -> 0 <= w) ->
  (forall j, (j < n)%nat -> load n W ws j <= H) -> curvature_between (path_fwd n W ys ws) n 0 H.
Proof.
  intros n W ys ws H LW W0 HL x fx Lx E. cbn in E. unfold Path_forward in E. cbn [dense m_cols] in E. rewrite Lx, Nat.eqb_refl, np_dot_ok in E by exact Lx. injection E as <-.
  assert (LF : length (matvec (dense n W) x) = length W) by (rewrite matvec_length; reflexivity).
  change (fo_invcov (path_fwd n W ys ws)) with (diags (map RtoC ws)).
  assert (Q : Re (quadform (diags (map RtoC ws)) (matvec (dense n W) x)) =
              rsum (map (fun i => nth i ws 0 * Cmod (csum (map (fun j => RtoC (crossing W i j) * nth j x (RtoC 0))%C (seq 0 n))) ^ 2) (seq 0 (length W)))).
  { rewrite (quadform_diagonal _ (map RtoC ws)); [|apply diags_diagonal|rewrite map_length; congruence].
    unfold matvec. cbn [dense m_rows m_cols m_ent]. clear - LW.
    assert (G : forall (g : nat -> C) k ws, Re (csum (map2 (fun a z => (a * RtoC (Cmod z ^ 2))%C) (map RtoC ws) (map g (seq k (length ws))))) =
                rsum (map (fun i => nth i ws 0 * Cmod (g (k + i)%nat) ^ 2) (seq 0 (length ws)))).
    { clear. intros g k ws. revert k. induction ws as [|w ws IH]; intros k; [reflexivity|]. cbn [length seq map map2].
      change (csum (?x :: ?l)) with (x + csum l)%C. change (rsum (?x :: ?l)) with (x + rsum l). rewrite <- (seq_shift (length ws) 0), map_map. cbn [nth].
      rewrite <- (rsum_map_ext (fun i => nth i ws 0 * Cmod (g (S k + i)%nat) ^ 2)) by (intros i _; replace (S k + i)%nat with (k + S i)%nat by lia; reflexivity).
      rewrite <- IH. rewrite Nat.add_0_r.
      match goal with |- Re (_ + ?t)%C = _ => generalize t end. intros t. unfold Re, Cplus, Cmult, RtoC. cbn [fst snd]. ring. }
    rewrite <- LW. rewrite G. apply rsum_map_ext. intros i _. reflexivity. }
  rewrite Q. split.
  - rewrite Rmult_0_l. apply rsum_nonneg. intros r Hr. apply in_map_iff in Hr. destruct Hr as (i & <- & Hi). apply in_seq in Hi.
    apply Rmult_le_pos; [apply W0, nth_In; lia|apply pow2_ge_0].
  - apply Rle_trans with (rsum (map (fun i => nth i ws 0 * (path_length n W i * rsum (map (fun j => Rabs (crossing W i j) * Cmod (nth j x (RtoC 0)) ^ 2) (seq 0 n)))) (seq 0 (length W)))).
    { apply rsum_map_le. intros i Hi. apply in_seq in Hi. apply Rmult_le_compat_l; [apply W0, nth_In; lia|]. apply cauchy_weighted. }
    rewrite (rsum_map_ext _ (fun i => rsum (map (fun j => nth i ws 0 * path_length n W i * Rabs (crossing W i j) * Cmod (nth j x (RtoC 0)) ^ 2) (seq 0 n)))).
    2: { intros i _. rewrite <- Rmult_assoc, <- rsum_map_scal. apply rsum_map_ext. intros j _. ring. }
    rewrite rsum_exchange.
    rewrite (rsum_map_ext _ (fun j => load n W ws j * Cmod (nth j x (RtoC 0)) ^ 2)).
    2: { intros j _. rewrite Rmult_comm. unfold load. rewrite <- rsum_map_scal. apply rsum_map_ext. intros i _. ring. }
    apply Rle_trans with (rsum (map (fun j => H * Cmod (nth j x (RtoC 0)) ^ 2) (seq 0 n))).
    { apply rsum_map_le. intros j Hj. apply in_seq in Hj. apply Rmult_le_compat_r; [apply pow2_ge_0|]. apply HL. lia. }
    rewrite rsum_map_scal. right. f_equal. unfold nrm2. rewrite <- Lx. clear. induction x as [|z x IH]; [reflexivity|].
    cbn [length seq map nth]. change (rsum (?x :: ?l)) with (x + rsum l). rewrite <- seq_shift, map_map. cbn [nth]. now rewrite IH.
Qed.
Print Assumptions C67_curvature.

(** *** paths of length at most one, such as the averages along great circles of
    the phase velocity experiment: the sum of the weights will do *)
Theorem C67_averages : forall n W ws j, length ws = length W -> (forall w, In w ws -> 0 <= w) ->
  (forall i, (i < length W)%nat -> path_length n W i <= 1) -> (j < n)%nat -> load n W ws j <= rsum ws.
Proof.
  intros n W ws j LW W0 HL Hj. unfold load. apply Rle_trans with (rsum (map (fun i => nth i ws 0) (seq 0 (length W)))).
  - apply rsum_map_le. intros i Hi. apply in_seq in Hi. assert (P : 0 <= nth i ws 0) by (apply W0, nth_In; lia).
    assert (Q := HL i ltac:(lia)). assert (B : Rabs (crossing W i j) <= path_length n W i).
    { apply (rsum_bound (fun j => Rabs (crossing W i j))); [intros; apply Rabs_pos|apply in_seq; lia]. }
    assert (B0 := Rabs_pos (crossing W i j)). rewrite Rmult_assoc. rewrite <- (Rmult_1_r (nth i ws 0)) at 2. apply Rmult_le_compat_l; [exact P|].
    rewrite <- (Rmult_1_r 1). apply Rmult_le_compat; lra.
  - right. rewrite <- LW. clear. f_equal. induction ws as [|w ws IH]; [reflexivity|]. cbn [length seq map nth]. f_equal. rewrite <- seq_shift, map_map. exact IH.
Qed.
Print Assumptions C67_averages.

(** ** The samplers *)
Section Samplers.
Context {G : Type}.
Variables (R0 : rng G) (n : nat) (W : list (list (nat * R))) (ys sig : list R) (t : R) (q : numparams) (H : R).
Hypothesis PS : path_setup R0 n W ys sig t q.
Hypothesis HP : 0 < H.
Hypothesis HL : forall j, (j < n)%nat -> load n W (map (fun s => 1 / (s * s)) sig) j <= H.
Notation m := (length W).
Notation f := (exact_paths_fwd n W ys sig).
Notation pr := (l1_prior t).
Notation fops rnd := (fl_ops rnd (g_randn R0) (g_laplace R0) (g_rand R0) (float_paths rnd n W ys sig t) (Fin (n_lmda q)) (Fin (n_mu q))).
Notation sops rnd := (fl_sk_ops rnd (n_s q) (g_randn R0) (g_laplace R0) (g_rand R0) (float_paths rnd n W ys sig t) (Fin (n_lmda q)) (Fin (n_mu q))).
Notation real := (mcmc_ops R0 f pr q).
Notation dist x y := (nm (vsub (map RtoC x) (map RtoC y))).

Theorem C67_convex : convex_problem f pr n m 0 H.
Proof.
  destruct PS as [GR HR IC LY LS NZ Ht Hl NC]. apply C64_convex; auto; [now rewrite map_length|lra|].
  apply C67_curvature; [now rewrite map_length| |exact HL]. intros w Hw. apply in_map_iff in Hw. destruct Hw as (s & <- & Hs).
  assert (E := NZ s Hs). assert (0 < s * s) by (assert (Q := Rsqr_pos_lt s E); exact Q). left. apply Rdiv_lt_0_compat; lra.
Qed.

Lemma paths_real : real_drift f pr q n.
Proof.
  destruct PS as [GR HR IC LY LS NZ Ht Hl NC]. intros Y g LY' RY E.
  assert (EY : exists y, Y = map RtoC y /\ length y = n).
  { exists (map fst Y). split; [|now rewrite map_length]. rewrite map_map. symmetry. rewrite <- (map_id Y) at 2. apply map_ext_in. intros (a & b) Hz. specialize (RY _ Hz). cbn in RY. subst b. reflexivity. }
  destruct EY as (y & -> & Ly). clear RY LY'. unfold gradlogpi in E. cbn [l1_prior pr_proxf] in E. rewrite soft_real in E. cbn [rbind] in E.
  unfold exact_paths_fwd in E. rewrite forward_exact in E by auto. rewrite np_sub_same in E by (rewrite !map_length; reflexivity). cbn [rbind] in E. rewrite gradg_exact in E by (rewrite ?map_length; congruence).
  cbn [rbind] in E.
  set (gg := grad _ _ _ _ _) in E. assert (Lg : length gg = n) by (unfold gg, grad; rewrite map_length; apply adj_length). clearbody gg.
  rewrite np_sub_same in E by (unfold vopp; rewrite !map_length, vscal_length, vsub_length; rewrite ?map_length; congruence).
  injection E as <-. set (p := map (rsoft t) y). clearbody p. clear - Ly. unfold vopp, vscal, vsub.
  revert p gg. clear Ly. induction y as [|a y IH]; intros [|b p] [|c gg] z Hz; cbn in Hz; try tauto. destruct Hz as [<- | Hz]; [cbn; ring|]. exact (IH p gg z Hz).
Qed.

Lemma starts_near : forall d x, 0 < d -> length x = n -> near_start n d (Some (map Fin x)) (StartArray [n] (map RtoC x)).
Proof. intros d x Hd Lx. apply start_near; [lra|]. split; [reflexivity|]. exists x. auto. Qed.

(** a run in floats and the exact run it is near to *)
Definition tracked {V D K P G0} (r : world V D K P G0 * outcome unit) (c : list V) : Prop := snd r = Ret tt /\ i_chain (w_inst (fst r)) = Some c.

Lemma exact_rows : forall e (r : world fvec fvec float float G * outcome unit) (r' : world vec vec C R G * outcome unit) c, near_run n m e r r' -> tracked r c ->
  exists c', tracked r' c' /\ Forall2 (near_vec n e) c c'.
Proof.
  intros e r r' c (A & B) (E1 & E2). assert (Q := ri_chain _ _ _ _ _ _ (proj1 A)). rewrite E2 in Q. unfold rel_arr in Q.
  destruct (i_chain (w_inst (fst r'))) as [c'|] eqn:E'; [|destruct Q]. exists c'. split; [split; [congruence|exact E']|exact Q].
Qed.
Lemma row_near : forall {A B} (P : A -> B -> Prop) c c' j r, Forall2 P c c' -> nth_error c j = Some r -> exists r', nth_error c' j = Some r' /\ P r r'.
Proof. intros A B P c c' j r F. revert j. induction F as [|a b c c' Ha F IH]; intros [|j] E; cbn in E; try discriminate; [injection E as <-; exists b; auto|apply IH; exact E]. Qed.

Lemma both : forall (P1 P2 : (R -> float) -> Prop), (exists d, 0 < d /\ forall rnd, accurate rnd (/ d) d -> P1 rnd) -> (exists d, 0 < d /\ forall rnd, accurate rnd (/ d) d -> P2 rnd) ->
  exists d, 0 < d /\ forall rnd, accurate rnd (/ d) d -> P1 rnd /\ P2 rnd.
Proof.
  assert (MO : forall rnd d d', 0 < d -> d <= d' -> accurate rnd (/ d) d -> accurate rnd (/ d') d').
  { intros rnd d d' H1 H2 (A0 & A). split; [lra|]. intros x Hx. destruct (A x) as (y & E & D). { apply Rle_trans with (1 := Hx). apply Rinv_le_contravar; lra. } exists y. split; [auto|lra]. }
  intros P1 P2 (d & Hd & A) (d' & Hd' & A'). exists (Rmin d d'). assert (P : 0 < Rmin d d') by now apply Rmin_glb_lt. split; [exact P|]. intros rnd AC. split.
  - apply A. apply (MO _ (Rmin d d')); auto. apply Rmin_l.
  - apply A'. apply (MO _ (Rmin d d')); auto. apply Rmin_r.
Qed.

Lemma worlds_near : forall rnd prm delta (g : G) d s s', 0 < delta -> 0 < d -> new_sampler (fops rnd) prm (Fin delta) = Ok s' -> new_sampler real prm delta = Ok s ->
  near_world n m d (mkWorld s' g) (mkWorld s g).
Proof.
  intros rnd prm delta g d s s' Hdl Hd Es' Es. split; [|reflexivity].
  assert (NS : near_step d (Fin delta) delta) by (apply step_near0; [lra|split; [reflexivity|lra]]).
  destruct (C66_new_sampler _ _ _ _ _ _ _ PS rnd prm delta delta d ltac:(lra) NS) as (Q & _). unfold rel_res in Q. rewrite Es', Es in Q. exact Q.
Qed.

(** rows in floats and with real numbers *)
Lemma near_dist : forall e x y u v, 0 <= e -> near_vec n e x u -> near_vec n e y v -> exists x' y', x = map Fin x' /\ y = map Fin y' /\ length x' = n /\ length y' = n /\
  nm (vsub u v) - 4 * e * sqrt (INR n) <= dist x' y' <= nm (vsub u v) + 4 * e * sqrt (INR n).
Proof.
  intros e x y u v He (x' & u' & -> & -> & L1 & L2 & A) (y' & v' & -> & -> & L3 & L4 & B). exists x', y'. repeat (split; [auto; fail|]).
  assert (D : forall a b, length a = n -> length b = n -> (forall k, (k < n)%nat -> Rabs (nth k a 0 - nth k b 0) <= e) -> dist a b <= 2 * e * sqrt (INR n)).
  { intros a b La Lb Hk. apply Rle_trans with (nm (vsub (map RtoC (map2 Rminus a b)) (map RtoC (repeat 0 n)))).
    - right. f_equal. clear Hk. revert a b La Lb. clear. induction n as [|k IH]; intros [|x a] [|y b] La Lb; try discriminate; [reflexivity|].
      cbn [map2 map repeat]. unfold vsub in *. cbn [map2]. f_equal; [apply C_ext; cbn; ring|]. apply IH; auto.
    - apply nm_within; [exact He|rewrite map2_length; congruence|apply repeat_length| |].
      + apply Forall_nth. intros k z Hk'. rewrite map2_length, La in Hk' by congruence. rewrite (nth_indep _ z 0) by (rewrite map2_length, La by congruence; auto).
        assert (E : nth k (map2 Rminus a b) 0 = nth k a 0 - nth k b 0). { clear - La Lb Hk'. revert a b k La Lb Hk'. induction n as [|j IH]; intros [|x a] [|y b] k La Lb Hk; try discriminate; try lia. destruct k; [reflexivity|]. cbn. apply IH; auto. lia. }
        rewrite E. now apply Hk.
      + apply Forall_forall. intros z Hz. apply repeat_spec in Hz. subst z. rewrite Rabs_R0. exact He. }
  assert (Q1 := D x' u' L1 L2 A). assert (Q2 := D y' v' L3 L4 B).
  assert (LM : forall l : list R, length l = n -> length (map RtoC l) = n) by (intros; now rewrite map_length).
  assert (F1 := nm_far n (map RtoC x') (map RtoC y') (map RtoC u') (map RtoC v') (LM _ L1) (LM _ L3) (LM _ L2) (LM _ L4)).
  assert (F2 := nm_far n (map RtoC u') (map RtoC v') (map RtoC x') (map RtoC y') (LM _ L2) (LM _ L4) (LM _ L1) (LM _ L3)).
  rewrite (nm_vopp (map RtoC u') (map RtoC x')) in F2 by (rewrite !map_length; congruence). rewrite (nm_vopp (map RtoC v') (map RtoC y')) in F2 by (rewrite !map_length; congruence). lra.
Qed.

(** *** MYULA with a step of at most 2 / (1 / lmda + H): two chains with the same
    random numbers do not move apart, in any arithmetic that is accurate enough *)
Theorem C67_myula : forall prm fuel delta g x y N e, 0 < delta -> delta * (/ n_lmda q + H) <= 2 -> length x = n -> length y = n ->
  p_nsamples prm = Z.of_nat N -> 0 < e ->
  exists d, 0 < d /\ forall rnd, accurate rnd (/ d) d -> forall s0 c1 c2, new_sampler (fops rnd) prm (Fin delta) = Ok s0 ->
    tracked (myula_run (fops rnd) prm fuel (Some (map Fin x)) (mkWorld s0 g)) c1 -> tracked (myula_run (fops rnd) prm fuel (Some (map Fin y)) (mkWorld s0 g)) c2 ->
    forall j r1 r2, (j < N)%nat -> nth_error c1 j = Some r1 -> nth_error c2 j = Some r2 ->
    exists x' y', r1 = map Fin x' /\ r2 = map Fin y' /\ length x' = n /\ length y' = n /\ dist x' y' <= dist x y + e.
Proof.
  intros prm fuel delta g x y N e Hd ST Lx Ly EN He.
  destruct (C44_new_sampler_exists _ _ _ _ _ _ real prm delta ltac:(lia)) as (s & Es).
  destruct (C44_new_sampler _ _ _ _ _ _ real prm delta s Es) as (_ & _ & _ & _ & _ & ED & _ & SZ). rewrite EN, Nat2Z.id in SZ.
  assert (SN := sqrt_pos (INR n)). set (e' := e / (4 * sqrt (INR n) + 1)).
  assert (E0 : 0 < e') by (apply Rdiv_lt_0_compat; lra).
  assert (E1 : 4 * e' * sqrt (INR n) <= e). { assert (E2 : e' * (4 * sqrt (INR n) + 1) = e) by (unfold e'; field; lra). lra. }
  assert (RX : exists d, 0 < d /\ forall rnd, accurate rnd (/ d) d -> forall s0, new_sampler (fops rnd) prm (Fin delta) = Ok s0 ->
            near_run n m e' (myula_run (fops rnd) prm fuel (Some (map Fin x)) (mkWorld s0 g)) (myula_run real prm fuel (StartArray [n] (map RtoC x)) (mkWorld s g))).
  { destruct (C66_myula _ _ _ _ _ _ _ PS prm fuel (StartArray [n] (map RtoC x)) (mkWorld s g) e' E0) as (d & D & K). exists d. split; [exact D|]. intros rnd AC s0 E. apply K; [exact AC|now apply starts_near|exact (worlds_near rnd prm delta g d s s0 Hd D E Es)]. }
  assert (RY : exists d, 0 < d /\ forall rnd, accurate rnd (/ d) d -> forall s0, new_sampler (fops rnd) prm (Fin delta) = Ok s0 ->
            near_run n m e' (myula_run (fops rnd) prm fuel (Some (map Fin y)) (mkWorld s0 g)) (myula_run real prm fuel (StartArray [n] (map RtoC y)) (mkWorld s g))).
  { destruct (C66_myula _ _ _ _ _ _ _ PS prm fuel (StartArray [n] (map RtoC y)) (mkWorld s g) e' E0) as (d & D & K). exists d. split; [exact D|]. intros rnd AC s0 E. apply K; [exact AC|now apply starts_near|exact (worlds_near rnd prm delta g d s s0 Hd D E Es)]. }
  destruct (both _ _ RX RY) as (d & D & K). exists d. split; [exact D|]. intros rnd AC s0 c1 c2 E0' T1 T2 j r1 r2 Hj N1 N2. destruct (K rnd AC) as (K1 & K2). specialize (K1 s0 E0'). specialize (K2 s0 E0').
  destruct (exact_rows _ _ _ _ K1 T1) as (b1 & (O1 & B1) & F1). destruct (exact_rows _ _ _ _ K2 T2) as (b2 & (O2 & B2) & F2).
  destruct (row_near _ _ _ _ _ F1 N1) as (u & U1 & U2). destruct (row_near _ _ _ _ _ F2 N2) as (v & V1 & V2).
  destruct (near_dist e' r1 r2 u v ltac:(lra) U2 V2) as (x' & y' & -> & -> & Lx' & Ly' & _ & Q). exists x', y'. repeat (split; [auto; fail|]).
  destruct PS as [GR HR IC LY LS NZ Ht Hl NC].
  assert (ED' : i_delta (w_inst (mkWorld s g)) = delta) by exact ED.
  assert (CT := C56_runs G R0 f pr q prm n m 0 H N fuel fuel [n] [n] (map RtoC x) (map RtoC y) (mkWorld s g) (mkWorld s g)
    (fst (myula_run real prm fuel (StartArray [n] (map RtoC x)) (mkWorld s g))) (fst (myula_run real prm fuel (StartArray [n] (map RtoC y)) (mkWorld s g))) b1 b2
    GR C67_convex ltac:(lra) Hl ltac:(rewrite ED'; lra) ltac:(rewrite ED'; exact ST) SZ SZ EN eq_refl eq_refl
    ltac:(rewrite <- O1; apply surjective_pairing) ltac:(rewrite <- O2; apply surjective_pairing) B1 B2 j u v Hj U1 V1).
  rewrite ED' in CT. assert (RT : rate (n_lmda q) delta 0 H = 1) by (unfold rate; ring). rewrite RT, pow1, Rmult_1_l in CT.
  assert (CM : nm (vsub u v) <= dist x y) by (apply sqrt_le_1_alt; exact CT). lra.
Qed.

(** *** SKROCK with two or more stages and a step of at most 1 / 22 of 1 / (1 / lmda + H):
    one of two chains with the same random numbers leaves every bounded range,
    after a number of steps that can be computed, in any arithmetic that is accurate
    enough *)
Definition inside (A : R) (r : fvec) : Prop := exists v, r = map Fin v /\ length v = n /\ within A v.
Theorem C67_skrock_leaves : forall s prm fuel delta g x y N A j, n_s q = Z.of_nat s -> (2 <= s)%nat ->
  0 < delta -> 22 * (delta * (/ n_lmda q + H)) <= 1 -> length x = n -> length y = n ->
  p_nsamples prm = Z.of_nat N -> (j < N)%nat -> 0 <= A -> 2 * (A + 1) * sqrt (INR n) < INR s ^ steps_to prm j * dist x y ->
  exists d, 0 < d /\ forall rnd, accurate rnd (/ d) d -> forall s0 c1 c2, new_sampler (sops rnd) prm (Fin delta) = Ok s0 ->
    tracked (skrock_run (sops rnd) prm fuel (Some (map Fin x)) (mkWorld s0 g)) c1 -> tracked (skrock_run (sops rnd) prm fuel (Some (map Fin y)) (mkWorld s0 g)) c2 ->
    forall r1 r2, nth_error c1 j = Some r1 -> nth_error c2 j = Some r2 -> ~ (inside A r1 /\ inside A r2).
Proof.
  intros s prm fuel delta g x y N A j Es Hs Hd SS Lx Ly EN Hj HA HB.
  destruct (C44_new_sampler_exists _ _ _ _ _ _ real prm delta ltac:(lia)) as (si & Ei).
  destruct (C44_new_sampler _ _ _ _ _ _ real prm delta si Ei) as (_ & _ & _ & _ & _ & ED & _ & SZ). rewrite EN, Nat2Z.id in SZ.
  assert (SN := sqrt_pos (INR n)). set (e' := 1 / 2).
  assert (E0 : 0 < e') by (unfold e'; lra).
  assert (Hs' : (1 <= n_s q)%Z) by lia.
  assert (RX : exists d, 0 < d /\ forall rnd, accurate rnd (/ d) d -> forall s0, new_sampler (fops rnd) prm (Fin delta) = Ok s0 ->
            near_run n m e' (skrock_run (sops rnd) prm fuel (Some (map Fin x)) (mkWorld s0 g)) (skrock_run real prm fuel (StartArray [n] (map RtoC x)) (mkWorld si g))).
  { destruct (C66_skrock _ _ _ _ _ _ _ PS Hs' prm fuel (StartArray [n] (map RtoC x)) (mkWorld si g) e' E0) as (d & D & K). exists d. split; [exact D|]. intros rnd AC s0 E. apply K; [exact AC|now apply starts_near|exact (worlds_near rnd prm delta g d si s0 Hd D E Ei)]. }
  assert (RY : exists d, 0 < d /\ forall rnd, accurate rnd (/ d) d -> forall s0, new_sampler (fops rnd) prm (Fin delta) = Ok s0 ->
            near_run n m e' (skrock_run (sops rnd) prm fuel (Some (map Fin y)) (mkWorld s0 g)) (skrock_run real prm fuel (StartArray [n] (map RtoC y)) (mkWorld si g))).
  { destruct (C66_skrock _ _ _ _ _ _ _ PS Hs' prm fuel (StartArray [n] (map RtoC y)) (mkWorld si g) e' E0) as (d & D & K). exists d. split; [exact D|]. intros rnd AC s0 E. apply K; [exact AC|now apply starts_near|exact (worlds_near rnd prm delta g d si s0 Hd D E Ei)]. }
  destruct (both _ _ RX RY) as (d & D & K). exists d. split; [exact D|]. intros rnd AC s0 c1 c2 E0' T1 T2 r1 r2 N1 N2 (I1 & I2). destruct (K rnd AC) as (K1 & K2).
  assert (E0'' : new_sampler (fops rnd) prm (Fin delta) = Ok s0) by exact E0'. specialize (K1 s0 E0''). specialize (K2 s0 E0'').
  destruct (exact_rows _ _ _ _ K1 T1) as (b1 & (O1 & B1) & F1). destruct (exact_rows _ _ _ _ K2 T2) as (b2 & (O2 & B2) & F2).
  destruct (row_near _ _ _ _ _ F1 N1) as (u & U1 & U2). destruct (row_near _ _ _ _ _ F2 N2) as (v & V1 & V2).
  destruct (near_dist e' r1 r2 u v ltac:(lra) U2 V2) as (x' & y' & -> & -> & Lx' & Ly' & Q & _).
  assert (INJ : forall u v : list R, map Fin u = map Fin v -> u = v).
  { clear. induction u as [|a u IH]; intros [|b v] H; cbn in H; try discriminate; [reflexivity|]. injection H as -> H. f_equal. auto. }
  destruct I1 as (x1 & Ex & _ & Wx). apply INJ in Ex. subst x1. destruct I2 as (y1 & Ey & _ & Wy). apply INJ in Ey. subst y1.
  assert (WI := nm_within A n x' y' HA Lx' Ly' Wx Wy).
  destruct PS as [GR HR IC LY LS NZ Ht Hl NC].
  assert (ED' : i_delta (w_inst (mkWorld si g)) = delta) by exact ED.
  assert (FS : forall l, faithful_start q (map RtoC l)) by (intros l; right; intros z Hz; apply in_map_iff in Hz; destruct Hz as (a & <- & _); reflexivity).
  assert (CT := C61_runs G R0 f pr q prm n m 0 H s N fuel fuel [n] [n] (map RtoC x) (map RtoC y) (mkWorld si g) (mkWorld si g)
    (fst (skrock_run real prm fuel (StartArray [n] (map RtoC x)) (mkWorld si g))) (fst (skrock_run real prm fuel (StartArray [n] (map RtoC y)) (mkWorld si g))) b1 b2
    GR C67_convex Hl ltac:(rewrite ED'; split; [lra|exact SS]) Es Hs (or_intror paths_real) (FS x) (FS y) SZ SZ EN eq_refl eq_refl
    ltac:(rewrite <- O1; apply surjective_pairing) ltac:(rewrite <- O2; apply surjective_pairing) B1 B2 j u v Hj U1 V1).
  set (k := steps_to prm j) in *.
  assert (P : 0 <= INR s ^ k) by (apply pow_le, pos_INR).
  assert (CM : INR s ^ k * dist x y <= nm (vsub u v)).
  { apply Rsqr_incr_0_var; [|apply nm_nonneg]. rewrite !Rsqr_pow2, Rpow_mult_distr, !nm_sq. rewrite <- pow_mult, Nat.mul_comm, pow_mult. exact CT. }
  unfold e' in Q. lra.
Qed.

(** there is such a row for every range, if the schedule is long enough *)
Theorem C67_skrock_when : forall s A x y, (2 <= s)%nat -> 0 < dist x y -> exists k0, forall k, (k0 <= k)%nat -> 2 * (A + 1) * sqrt (INR n) < INR s ^ k * dist x y.
Proof.
  intros s A x y Hs HD. assert (S2 : 2 <= INR s) by (change 2 with (INR 2); apply le_INR; auto).
  destruct (Pow_x_infinity (INR s) ltac:(rewrite Rabs_pos_eq; lra) ((Rabs (2 * (A + 1) * sqrt (INR n)) + 1) / dist x y)) as (k0 & Hk).
  exists k0. intros k Hk0. specialize (Hk k Hk0). rewrite Rabs_pos_eq in Hk by (apply pow_le; lra). apply Rge_le in Hk.
  apply (Rmult_le_compat_r (dist x y)) in Hk; [|lra]. unfold Rdiv in Hk. rewrite Rmult_assoc, Rinv_l, Rmult_1_r in Hk by lra.
  assert (Q1 := Rle_abs (2 * (A + 1) * sqrt (INR n))). lra.
Qed.
(** *** the runs these theorems speak of exist: both samplers return *)
Theorem C67_runs_end : forall prm fuel delta g x N, (1 <= n_s q)%Z -> 0 < delta -> length x = n -> p_nsamples prm = Z.of_nat N ->
  p_track prm = ["logposterior"; "L2"; "prior"; "chain"]%string -> (total_iters (p_nburn prm) (p_ngap prm) N <= fuel)%nat ->
  exists d, 0 < d /\ forall rnd, accurate rnd (/ d) d -> exists s0 c1 c2, new_sampler (fops rnd) prm (Fin delta) = Ok s0 /\ new_sampler (sops rnd) prm (Fin delta) = Ok s0 /\
    tracked (myula_run (fops rnd) prm fuel (Some (map Fin x)) (mkWorld s0 g)) c1 /\ length c1 = N /\
    tracked (skrock_run (sops rnd) prm fuel (Some (map Fin x)) (mkWorld s0 g)) c2 /\ length c2 = N.
Proof.
  intros prm fuel delta g x N Hs Hd Lx EN ET HF. assert (PS' := PS). destruct PS' as [GR HR IC LY LS NZ Ht Hl NC].
  destruct (C44_new_sampler_exists _ _ _ _ _ _ real prm delta ltac:(lia)) as (s & Es).
  destruct (C44_new_sampler _ _ _ _ _ _ real prm delta s Es) as (K1 & K2 & K3 & K4 & K5 & K6 & K7 & SZ). rewrite EN, Nat2Z.id in SZ, K1, K2, K3, K5. rewrite ET in K1, K2, K3, K5. cbn in K1, K2, K3, K5.
  assert (NM : ~ line_array_missing (w_inst (mkWorld s g))).
  { unfold line_array_missing. cbn [w_inst]. rewrite K1, K2, K3. intros [Q|[Q|Q]]; discriminate. }
  assert (PT : forall x, length x = n -> exists r, pr_prior pr x = Ok r) by (intros; eexists; reflexivity).
  assert (Lx' : length (map RtoC x) = n) by now rewrite map_length.
  destruct (C01_numerical_runs_end G R0 f pr q prm fuel (StartArray [n] (map RtoC x)) (mkWorld s g) n m N GR (convex_shapes f pr n m 0 H C67_convex PT) ltac:(lra)
    (conj eq_refl Lx') SZ EN NM) as ((_ & A) & (_ & A')).
  destruct (A HF) as (v1 & E1). destruct (A' HF) as (v2 & E2).
  assert (R1 : exists d, 0 < d /\ forall rnd, accurate rnd (/ d) d -> forall s0, new_sampler (fops rnd) prm (Fin delta) = Ok s0 ->
            near_run n m 1 (myula_run (fops rnd) prm fuel (Some (map Fin x)) (mkWorld s0 g)) (myula_run real prm fuel (StartArray [n] (map RtoC x)) (mkWorld s g))).
  { destruct (C66_myula _ _ _ _ _ _ _ PS prm fuel (StartArray [n] (map RtoC x)) (mkWorld s g) 1 Rlt_0_1) as (d & D & K). exists d. split; [exact D|]. intros rnd AC s0 E. apply K; [exact AC|now apply starts_near|exact (worlds_near rnd prm delta g d s s0 Hd D E Es)]. }
  assert (R2 : exists d, 0 < d /\ forall rnd, accurate rnd (/ d) d -> forall s0, new_sampler (fops rnd) prm (Fin delta) = Ok s0 ->
            near_run n m 1 (skrock_run (sops rnd) prm fuel (Some (map Fin x)) (mkWorld s0 g)) (skrock_run real prm fuel (StartArray [n] (map RtoC x)) (mkWorld s g))).
  { destruct (C66_skrock _ _ _ _ _ _ _ PS Hs prm fuel (StartArray [n] (map RtoC x)) (mkWorld s g) 1 Rlt_0_1) as (d & D & K). exists d. split; [exact D|]. intros rnd AC s0 E. apply K; [exact AC|now apply starts_near|exact (worlds_near rnd prm delta g d s s0 Hd D E Es)]. }
  destruct (both _ _ R1 R2) as (d & D & K). exists d. split; [exact D|]. intros rnd AC.
  destruct (C44_new_sampler_exists _ _ _ _ _ _ (fops rnd) prm (Fin delta) ltac:(lia)) as (s0 & E0). exists s0.
  destruct (K rnd AC) as (Q1 & Q2). specialize (Q1 s0 E0). specialize (Q2 s0 E0). rewrite E1 in Q1. rewrite E2 in Q2.
  assert (CH : forall (r : world fvec fvec float float G * outcome unit) (v : world vec vec C R G), near_run n m 1 r (v, Ret tt) -> (exists a, i_chain (w_inst v) = Some a /\ length a = N) -> exists c, tracked r c /\ length c = N).
  { intros r v (X1 & X2) (a & Ea & La). assert (Q := ri_chain _ _ _ _ _ _ (proj1 X1)). cbn [fst] in Q. rewrite Ea in Q. unfold rel_arr in Q. destruct (i_chain (w_inst (fst r))) as [c|] eqn:Ec; [|destruct Q].
    exists c. split; [split; [exact X2|exact Ec]|]. rewrite <- La. exact (Forall2_length _ _ _ Q). }
  assert (C1 : exists a, i_chain (w_inst v1) = Some a /\ length a = N).
  { destruct (C01_myula_schedule _ _ _ _ _ _ real prm fuel _ (mkWorld s g) v1 N SZ EN E1) as (_ & _ & l & _ & _ & _ & _ & Ll & _ & RR & _).
    destruct RR as (_ & _ & _ & _ & RR). cbn [w_inst] in RR. rewrite K5 in RR. destruct (i_chain (w_inst v1)) as [a|]; [|destruct RR].
    destruct RR as (rows & F2 & _ & ->). eexists. split; [reflexivity|]. assert (L2 := Forall2_length _ _ _ F2). rewrite map_length in L2. rewrite app_length, skipn_length, repeat_length, map_length. lia. }
  assert (C2 : exists a, i_chain (w_inst v2) = Some a /\ length a = N).
  { destruct (C01_skrock_schedule _ _ _ _ _ _ real prm fuel _ (mkWorld s g) v2 N SZ EN E2) as (_ & _ & l & _ & _ & _ & _ & Ll & _ & RR & _).
    destruct RR as (_ & _ & _ & _ & RR). cbn [w_inst] in RR. rewrite K5 in RR. destruct (i_chain (w_inst v2)) as [a|]; [|destruct RR].
    destruct RR as (rows & F2 & _ & ->). eexists. split; [reflexivity|]. assert (L2 := Forall2_length _ _ _ F2). rewrite map_length in L2. rewrite app_length, skipn_length, repeat_length, map_length. lia. }
  destruct (CH _ _ Q1 C1) as (c1 & T1 & L1). destruct (CH _ _ Q2 C2) as (c2 & T2 & L2). exists c1, c2. split; [exact E0|]. split; [exact E0|]. auto.
Qed.
End Samplers.
Print Assumptions C67_convex.
Print Assumptions C67_myula.
Print Assumptions C67_skrock_leaves.
Print Assumptions C67_skrock_when.
Print Assumptions C67_runs_end.

(** ** A concrete case: the three paths of C64_case.  Both pixels have load 3; SKROCK
    with two stages and step 1/100, started at 0, 0 and at 1, 0: after 12 iterations
    one of the chains has left [-1000, 1000] *)
Example C67_case :
  let q := mkNum 1 1 2 false in let ys := [1; 1; 2] in let sig := [1; 1; 1] in
  let sops := fun rnd => fl_sk_ops rnd 2 (g_randn alternating) (g_laplace alternating) (g_rand alternating) (float_paths rnd 2 three_paths ys sig (1 / 4)) (Fin 1) (Fin 1) in
  let prm := {| p_nsamples := 1; p_nburn := 11; p_ngap := 1; p_verbosity := 0; p_track := ["logposterior"; "L2"; "prior"; "chain"]%string |} in
  (forall j, (j < 2)%nat -> load 2 three_paths (map (fun s => 1 / (s * s)) sig) j = 3) /\
  exists d, 0 < d /\ forall rnd, accurate rnd (/ d) d -> exists s0 c1 c2 r1 r2, new_sampler (sops rnd) prm (Fin (1 / 100)) = Ok s0 /\
    tracked (skrock_run (sops rnd) prm 12 (Some [Fin 0; Fin 0]) (mkWorld s0 0%nat)) c1 /\ tracked (skrock_run (sops rnd) prm 12 (Some [Fin 1; Fin 0]) (mkWorld s0 0%nat)) c2 /\
    c1 = [r1] /\ c2 = [r2] /\ ~ (inside 2 1000 r1 /\ inside 2 1000 r2).
Proof.
  intros q ys sig sops prm.
  assert (LD : forall j, (j < 2)%nat -> load 2 three_paths (map (fun s => 1 / (s * s)) sig) j = 3).
  { intros [|[|j]] Hj; try lia; unfold load, path_length, crossing; cbn; rewrite ?Rplus_0_r, ?Rplus_0_l, ?Rabs_R0, ?Rabs_R1; field. }
  split; [exact LD|].
  assert (PS : path_setup alternating 2 three_paths ys sig (1 / 4) q).
  { constructor; cbn; auto; try lra; [apply alternating_ok|intros; lra|repeat constructor|intros s [<- | [<- | [<- | []]]]; lra]. }
  assert (LE : forall j, (j < 2)%nat -> load 2 three_paths (map (fun s => 1 / (s * s)) sig) j <= 3) by (intros j Hj; rewrite (LD j Hj); lra).
  assert (R1 := C67_runs_end alternating 2 three_paths ys sig (1 / 4) q 3 PS ltac:(lra) LE prm 12 (1 / 100) 0%nat [0; 0] 1 ltac:(cbn; lia) ltac:(lra) eq_refl eq_refl eq_refl ltac:(cbn; lia)).
  assert (R2 := C67_runs_end alternating 2 three_paths ys sig (1 / 4) q 3 PS ltac:(lra) LE prm 12 (1 / 100) 0%nat [1; 0] 1 ltac:(cbn; lia) ltac:(lra) eq_refl eq_refl eq_refl ltac:(cbn; lia)).
  assert (DS : nm (vsub (map RtoC [0; 0]) (map RtoC [1; 0])) = 1).
  { unfold nm, vsub. cbn [map map2]. rewrite !MomentProof.nrm2_cons. change (nrm2 []) with 0. cbn. transitivity (sqrt 1); [f_equal; ring|apply sqrt_1]. }
  assert (SQ : sqrt (INR 2) <= 3 / 2). { cbn. apply Rsqr_incr_0_var; [|lra]. rewrite Rsqr_sqrt by lra. unfold Rsqr. lra. }
  assert (A1 : 22 * (1 / 100 * (/ n_lmda q + 3)) <= 1) by (cbn; rewrite Rinv_1; lra).
  assert (A2 : 2 * (1000 + 1) * sqrt (INR 2) < INR 2 ^ steps_to prm 0 * nm (vsub (map RtoC [0; 0]) (map RtoC [1; 0]))).
  { rewrite DS. change (steps_to prm 0) with 12%nat. assert (P2 : INR 2 ^ 12 = 4096) by (cbn; ring). rewrite P2. lra. }
  assert (R3 := C67_skrock_leaves alternating 2 three_paths ys sig (1 / 4) q 3 PS ltac:(lra) LE 2 prm 12 (1 / 100) 0%nat [0; 0] [1; 0] 1 1000 0 eq_refl ltac:(lia) ltac:(lra)
    A1 eq_refl eq_refl eq_refl ltac:(lia) ltac:(lra) A2).
  destruct (both _ _ R3 (both _ _ R1 R2)) as (d & D & K). exists d. split; [exact D|]. intros rnd AC. destruct (K rnd AC) as (K3 & K1 & K2).
  destruct K1 as (s0 & _ & c1 & _ & E1 & _ & _ & T1 & L1). destruct K2 as (s1 & _ & c2 & _ & E2 & _ & _ & T2 & L2).
  assert (s1 = s0) by (cbn [n_s q] in *; congruence). subst s1. clear E2.
  destruct c1 as [|r1 [|]]; try discriminate L1. destruct c2 as [|r2 [|]]; try discriminate L2.
  exists s0, [r1], [r2], r1, r2. split; [exact E1|]. split; [exact T1|]. split; [exact T2|]. split; [reflexivity|]. split; [reflexivity|].
  exact (K3 s0 [r1] [r2] E1 T1 T2 r1 r2 eq_refl eq_refl).
Qed.
