(** The float model of Ieee.v with exact arithmetic against the real-number
    model of Mcmc.v. *)
From Coq Require Import List ZArith Lia Bool Reals Lra String.
From Coquelicot Require Import Coquelicot.
From Verif Require Import PyBase PyBaseFacts CVec Forward FwdProof RSort Prior Mcmc Sampler ParamSpec ParamProof Ieee IeeeProof RepSpec.
Import ListNotations.
Open Scope R_scope.

Lemma combine_map2 {A B D} (op : A -> B -> D) l m : map (fun p => op (fst p) (snd p)) (combine l m) = map2 op l m.
Proof. revert m. induction l as [|a l IH]; intros [|b m]; cbn; auto. now rewrite IH. Qed.
Lemma map2_fin (op : float -> float -> float) (ro : R -> R -> R) a b :
  (forall x y, op (Fin x) (Fin y) = Fin (ro x y)) -> map2 op (map Fin a) (map Fin b) = map Fin (map2 ro a b).
Proof. intros H. revert b. induction a as [|x a IH]; intros [|y b]; cbn; auto. now rewrite H, IH. Qed.
Lemma fzip_fin (op : float -> float -> float) (ro : R -> R -> R) a b :
  (forall x y, op (Fin x) (Fin y) = Fin (ro x y)) -> List.length a = List.length b ->
  fzip op (map Fin a) (map Fin b) = Ok (map Fin (map2 ro a b)).
Proof. intros H L. unfold fzip. rewrite !map_length, L, Nat.eqb_refl, combine_map2. now rewrite (map2_fin op ro). Qed.
Lemma fadd_fin x y : fadd Fin (Fin x) (Fin y) = Fin (x + y). Proof. reflexivity. Qed.
Lemma fsub_fin x y : fsub Fin (Fin x) (Fin y) = Fin (x - y). Proof. reflexivity. Qed.
Lemma fscal_fin c a : fscal Fin (Fin c) (map Fin a) = map Fin (map (Rmult c) a).
Proof. unfold fscal. rewrite !map_map. reflexivity. Qed.
Lemma fsum_fin l : fsum Fin (map Fin l) = Fin (rsum l).
Proof.
  unfold fsum. assert (H : forall l z, fold_left (fadd Fin) (map Fin l) (Fin z) = Fin (z + rsum l)).
  { induction l0 as [|a l0 IH]; intros z; cbn; [f_equal; ring|]. rewrite IH. f_equal. unfold rsum. ring. }
  rewrite H. f_equal. ring.
Qed.
Lemma fdot_fin a b : fdot Fin (map Fin a) (map Fin b) = Fin (rsum (map2 Rmult a b)).
Proof. unfold fdot. rewrite combine_map2, (map2_fin (fmul Fin) Rmult) by reflexivity. apply fsum_fin. Qed.

Lemma map2_rtoc (op : C -> C -> C) (ro : R -> R -> R) a b :
  (forall x y, op (RtoC x) (RtoC y) = RtoC (ro x y)) -> map2 op (map RtoC a) (map RtoC b) = map RtoC (map2 ro a b).
Proof. intros H. revert b. induction a as [|x a IH]; intros [|y b]; cbn; auto. now rewrite H, IH. Qed.
Lemma rtoc_add x y : (RtoC x + RtoC y)%C = RtoC (x + y). Proof. symmetry. apply RtoC_plus. Qed.
Lemma rtoc_sub x y : (RtoC x - RtoC y)%C = RtoC (x - y). Proof. symmetry. apply RtoC_minus. Qed.
Lemma rtoc_mul x y : (RtoC x * RtoC y)%C = RtoC (x * y). Proof. symmetry. apply RtoC_mult. Qed.
Lemma np_add_r a b : List.length a = List.length b -> np_add (map RtoC a) (map RtoC b) = Ok (map RtoC (map2 Rplus a b)).
Proof. intros L. rewrite np_add_same by now rewrite !map_length. unfold vadd. now rewrite (map2_rtoc Cplus Rplus) by apply rtoc_add. Qed.
Lemma np_sub_r a b : List.length a = List.length b -> np_sub (map RtoC a) (map RtoC b) = Ok (map RtoC (map2 Rminus a b)).
Proof. intros L. rewrite np_sub_same by now rewrite !map_length. unfold vsub. now rewrite (map2_rtoc Cminus Rminus) by apply rtoc_sub. Qed.
Lemma vscal_r c a : vscal (RtoC c) (map RtoC a) = map RtoC (map (Rmult c) a).
Proof. unfold vscal. rewrite !map_map. apply map_ext. intros. apply rtoc_mul. Qed.
Lemma vopp_r a : vopp (map RtoC a) = map RtoC (map Ropp a).
Proof. unfold vopp. rewrite !map_map. apply map_ext. intros. symmetry. apply RtoC_opp. Qed.
Lemma cdot_r a b : cdot (map RtoC a) (map RtoC b) = RtoC (rsum (map2 Rmult a b)).
Proof.
  unfold cdot. rewrite (map2_rtoc _ Rmult); [apply csum_RtoC|]. intros x y. rewrite <- rtoc_mul. f_equal.
  apply C_ext; cbn; [reflexivity|ring].
Qed.

Section E.
Context {G : Type}.
Variable R0 : rng G.
Variable n m : nat.
Variable f : fl_problem.
Variable F : forward_op.
Variable pr : prior_obj.
Variable q : numparams.
Hypothesis HG : forall k g, List.length (fst (g_randn R0 k g)) = k /\ List.length (fst (g_laplace R0 k g)) = k.
Hypothesis HU : forall g, 0 < fst (g_rand R0 g).
Hypothesis HP : same_problem n m f F pr.
Hypothesis HC : n_complex q = false.
Hypothesis HL : 0 < n_lmda q.
Notation l := (n_lmda q).

Lemma map2_len {A B D} (op : A -> B -> D) a b : List.length a = List.length b -> List.length (map2 op a b) = List.length a.
Proof. intros H. now apply CVec.map2_length. Qed.

Lemma exact_step p d x x' y y' z z' g : same_step p d -> same_vec n x x' -> same_vec n y y' -> same_vec n z z' ->
  rel_drawn eq (same_vec n) (f_step Fin (g_randn R0) f (Fin l) p x y z g) (chain_step R0 F q d x' y' z' g).
Proof.
  intros (-> & Hd) (vx & Lx & -> & ->) (vy & Ly & -> & ->) (vz & Lz & -> & ->).
  unfold f_step, chain_step. rewrite (sp_n' _ _ _ _ _ HP), (sp_n _ _ _ _ _ HP), HC. unfold draw.
  destruct (HG n g) as (Lw & _). destruct (g_randn R0 n g) as [w g']. cbn [fst snd] in *.
  destruct (Req_EM_T l 0) as [E|NE]; [lra|]. split; cbn [fst snd]; [|reflexivity].
  unfold py_fdiv. destruct (Req_EM_T l 0); [lra|]. cbn [fdiv]. destruct (Req_EM_T l 0); [lra|]. cbn [rbind].
  rewrite fsub_fin, !fscal_fin, !vscal_r.
  rewrite (fzip_fin (fadd Fin) Rplus), np_add_r by (try apply fadd_fin; rewrite !map_length; congruence). cbn [rbind].
  rewrite (fzip_fin (fsub Fin) Rminus), np_sub_r by (try apply fsub_fin; rewrite map2_len; rewrite !map_length; congruence). cbn [rbind].
  cbn [fmul fsqrt]. destruct (Rlt_dec (2 * d) 0); [lra|]. rewrite fscal_fin.
  assert (L2 : List.length (map2 Rminus (map2 Rplus (map (Rmult (1 - d / l)) vx) (map (Rmult (d / l)) vy)) (map (Rmult d) vz)) = n)
    by (rewrite !map2_len; rewrite ?map2_len; rewrite !map_length; congruence).
  rewrite (fzip_fin (fadd Fin) Rplus), np_add_r by (try apply fadd_fin; rewrite L2, map_length; congruence).
  eexists. split; [|split; reflexivity]. rewrite map2_len; rewrite L2; [reflexivity|]. rewrite map_length. congruence.
Qed.

Lemma exact_logtrans p d x x' y y' z z' t t' : same_step p d -> same_vec n x x' -> same_vec n y y' -> same_vec n z z' -> same_vec n t t' ->
  rel_res same_num (f_logtrans Fin (Fin l) p x y z t) (logtransition q d x' y' z' t').
Proof.
  intros (-> & Hd) (vx & Lx & -> & ->) (vy & Ly & -> & ->) (vz & Lz & -> & ->) (vt & Lt & -> & ->).
  unfold f_logtrans, logtransition.
  rewrite (fzip_fin (fsub Fin) Rminus), np_sub_r by (try apply fsub_fin; congruence). cbn [rbind].
  replace (map (fun x0 => fneg (fdiv Fin x0 (Fin l))) (map Fin (map2 Rminus vx vz)))
    with (map Fin (map Ropp (map (Rmult (/ l)) (map2 Rminus vx vz)))).
  2:{ rewrite !map_map. apply map_ext. intros a. cbn. destruct (Req_EM_T l 0); [lra|]. cbn. f_equal. field. lra. }
  rewrite vscal_r, vopp_r.
  assert (L1 : List.length (map2 Rminus vx vz) = n) by (rewrite map2_len; congruence).
  rewrite (fzip_fin (fsub Fin) Rminus), np_sub_r by (try apply fsub_fin; rewrite !map_length; congruence). cbn [rbind].
  rewrite (fzip_fin (fsub Fin) Rminus), np_sub_r by (try apply fsub_fin; congruence). cbn [rbind].
  cbn [fdiv]. destruct (Req_EM_T 2 0); [lra|]. rewrite fscal_fin, vscal_r.
  assert (L2 : List.length (map2 Rminus vy vx) = n) by (rewrite map2_len; congruence).
  assert (L3 : List.length (map2 Rminus (map Ropp (map (Rmult (/ l)) (map2 Rminus vx vz))) vt) = n)
    by (rewrite map2_len; rewrite !map_length; congruence).
  rewrite (fzip_fin (fsub Fin) Rminus), np_sub_r by (try apply fsub_fin; rewrite map_length; congruence). cbn [rbind].
  set (r := map2 Rminus (map2 Rminus vy vx) _).
  replace (map (fun x0 => fmul Fin x0 x0) (map Fin r)) with (map Fin (map (fun a => a * a) r)) by (rewrite !map_map; reflexivity).
  replace (map (fun z => (z * z)%C) (map RtoC r)) with (map RtoC (map (fun a => a * a) r)).
  2:{ rewrite !map_map. apply map_ext. intros a. symmetry. apply rtoc_mul. }
  rewrite fsum_fin, csum_RtoC. cbn. eexists. split; [reflexivity|]. rewrite !rtoc_mul. reflexivity.
Qed.

Lemma exact_matvec W v : List.length v = m -> List.length W = m ->
  f_matvec Fin (map (map (fun p => (fst p, Fin (snd p)))) W) (map Fin v) =
  Ok (map Fin (map (fun r => rsum (map (fun p => snd p * nth (fst p) v 0) r)) W)).
Proof.
  intros L LW. unfold f_matvec. rewrite !map_length, L, LW, Nat.eqb_refl. rewrite !map_map. f_equal. apply map_ext. intros r.
  unfold fspdot. rewrite <- fsum_fin. f_equal. rewrite !map_map. apply map_ext. intros [k a]. cbn [fst snd].
  rewrite (map_nth Fin). reflexivity.
Qed.
Lemma stored_sum k v r : List.Forall (fun p : nat * R => (fst p < k)%nat) r ->
  rsum (map (fun j => rsum (map snd (filter (fun p => Nat.eqb (fst p) j) r)) * nth j v 0) (seq 0 k)) =
  rsum (map (fun p => snd p * nth (fst p) v 0) r).
Proof.
  assert (RC : forall x l, rsum (x :: l) = x + rsum l) by reflexivity.
  assert (Z : forall (g : nat -> R) l, (forall j, In j l -> g j = 0) -> rsum (map g l) = 0).
  { intros g l. induction l as [|j l IH]; intros H; [reflexivity|]. cbn [map]. rewrite RC, H by now left. rewrite IH by (intros; apply H; now right). ring. }
  assert (AD : forall (g h : nat -> R) l, rsum (map (fun j => g j + h j) l) = rsum (map g l) + rsum (map h l)).
  { intros g h l. induction l as [|j l IH]; cbn [map]; [cbn; ring|]. rewrite !RC, IH. ring. }
  assert (ONE : forall i a l, In i l -> NoDup l -> rsum (map (fun j => if Nat.eqb i j then a * nth j v 0 else 0) l) = a * nth i v 0).
  { intros i a l Hi ND. induction ND as [|j l NI ND IH]; [destruct Hi|]. cbn [map]. rewrite RC. destruct (Nat.eqb_spec i j) as [->|N].
    - rewrite Z; [ring|]. intros j' Hj. destruct (Nat.eqb_spec j j'); [subst; contradiction|reflexivity].
    - destruct Hi as [->|Hi]; [contradiction|]. rewrite (IH Hi). ring. }
  induction r as [|[i a] r IH]; intros FA.
  - change (rsum (map (fun p => snd p * nth (fst p) v 0) [])) with 0. apply Z. intros. cbn. ring.
  - inversion FA as [|? ? Hi FA']; subst. cbn [fst] in Hi. cbn [map fst snd].
    rewrite RC, <- (IH FA'), <- (ONE i a (seq 0 k)) by (try apply seq_NoDup; apply in_seq; lia).
    rewrite <- AD. f_equal. apply map_ext. intros j. cbn [filter fst]. destruct (Nat.eqb i j); cbn [map snd]; rewrite ?RC; ring.
Qed.
Lemma real_matvec W v : List.length v = m -> List.length W = m -> List.Forall (List.Forall (fun p => (fst p < m)%nat)) W ->
  m_rows (fo_invcov F) = m -> m_cols (fo_invcov F) = m ->
  (forall i j, (i < m)%nat -> (j < m)%nat -> m_ent (fo_invcov F) i j = RtoC (rsum (map snd (filter (fun p => Nat.eqb (fst p) j) (nth i W []))))) ->
  matvec (fo_invcov F) (map RtoC v) = map RtoC (map (fun r => rsum (map (fun p => snd p * nth (fst p) v 0) r)) W).
Proof.
  intros L LW FW MR MC ME. unfold matvec. rewrite MR, MC.
  transitivity (map (fun i => RtoC (rsum (map (fun p => snd p * nth (fst p) v 0) (nth i W [])))) (seq 0 m)).
  - apply map_ext_in. intros i Hi. apply in_seq in Hi.
    rewrite <- (stored_sum m v (nth i W [])); [|rewrite Forall_forall in FW; apply FW, nth_In; lia].
    rewrite <- csum_RtoC. rewrite map_map. f_equal. apply map_ext_in. intros j Hj. apply in_seq in Hj. rewrite ME by lia.
    rewrite (map_nth RtoC). apply rtoc_mul.
  - rewrite map_map. rewrite <- LW. clear. induction W as [|r W IH]; [reflexivity|].
    cbn [List.length seq map nth]. f_equal. rewrite <- seq_shift, map_map. exact IH.
Qed.

Lemma exact_logpi x y d e : same_vec n x y -> same_vec m d e ->
  rel_res (rel_tri same_num) (f_logpi Fin f (Fin (n_mu q)) x d) (logpi F pr q y e).
Proof.
  intros Hx (vd & Ld & -> & ->). unfold f_logpi, logpi.
  destruct (sp_data _ _ _ _ _ HP) as (dat & Ldat & -> & ->).
  destruct (sp_cov _ _ _ _ _ HP) as (W & LW & FW & -> & MR & MC & ME).
  rewrite (fzip_fin (fsub Fin) Rminus), np_sub_r by (try apply fsub_fin; congruence). cbn [rbind].
  assert (L1 : List.length (map2 Rminus dat vd) = m) by (rewrite map2_len; congruence).
  rewrite exact_matvec by assumption. cbn [rbind].
  assert (ND : np_dot (fo_invcov F) (map RtoC (map2 Rminus dat vd)) = Ok (map RtoC (map (fun r => rsum (map (fun p => snd p * nth (fst p) (map2 Rminus dat vd) 0) r)) W))).
  { unfold np_dot. rewrite map_length, L1, MC, Nat.eqb_refl. f_equal. now apply real_matvec. }
  rewrite ND. cbn [rbind]. unfold np_vdot. rewrite !map_length, L1, LW, Nat.eqb_refl. cbn [rbind]. rewrite fdot_fin, cdot_r.
  pose proof (sp_prior _ _ _ _ _ HP x y Hx) as Hp.
  destruct (fp_prior f x) as [k|], (pr_prior pr y) as [r|]; cbn in Hp; try contradiction; cbn [rbind]; [subst k|exact Hp].
  cbn. split; [|split]; eexists; (split; [reflexivity|]); [|reflexivity|reflexivity]. cbn. rewrite <- RtoC_minus. reflexivity.
Qed.

Lemma exact_tune p d a i : same_step p d -> same_step (f_tuned Fin (Fin l) p a i) (tuned q d a i).
Proof.
  intros (-> & Hd). unfold f_tuned, tuned, flit.
  assert (Hp : 0 < Rpower (IZR (i + 1)) (75 / 100)) by apply exp_pos.
  set (p := Rpower (IZR (i + 1)) (75 / 100)) in *. rewrite fsub_fin. cbn [fdiv]. destruct (Req_EM_T p 0); [lra|].
  rewrite fadd_fin. destruct (Req_EM_T 2 0); [lra|]. cbn [fmul].
  replace (IZR a - 5 / 10) with (IZR a - 1 / 2) by lra. set (x := d * (1 + (IZR a - 1 / 2) / p)).
  unfold fmin, fmax. cbn [fltb]. unfold Rmin, Rmax. split.
  - destruct (Rlt_dec x (l * (1 / 100000000))) as [h1|h1], (Rle_dec x (l * (1 / 100000000))) as [h2|h2]; try lra; cbn [fltb];
      match goal with |- context [Rlt_dec ?a ?b] => destruct (Rlt_dec a b) end;
      match goal with |- context [Rle_dec ?a ?b] => destruct (Rle_dec a b) end; f_equal; lra.
  - destruct (Rle_dec x (l * (1 / 100000000))); match goal with |- context [Rle_dec ?a ?b] => destruct (Rle_dec a b) end; lra.
Qed.

Lemma same_map k (g : C -> C) x y : (forall r, g (RtoC r) = RtoC r) -> same_vec k x y -> rel_res (same_vec k) (f_row k x) (store_row k g y).
Proof.
  intros Hg (v & Lv & -> & ->). unfold f_row, store_row. rewrite !map_length, Lv, Nat.eqb_refl. cbn. exists v. split; [exact Lv|].
  split; [reflexivity|]. rewrite map_map. apply map_ext. exact Hg.
Qed.

Lemma exact_ops : rel_ops (same_vec n) (same_vec m) same_num same_step eq (same_start n)
  (fl_ops Fin (g_randn R0) (g_laplace R0) (g_rand R0) f (Fin l) (Fin (n_mu q))) (mcmc_ops R0 F pr q).
Proof.
  assert (TF : forall r, to_float (RtoC r) = RtoC r) by reflexivity.
  pose proof (sp_n _ _ _ _ _ HP) as N1. pose proof (sp_n' _ _ _ _ _ HP) as N2.
  destruct (sp_data _ _ _ _ _ HP) as (dat & Ldat & D1 & D2).
  constructor; cbn.
  - intros i i' g g' Hi <-. unfold f_start, choose_start. rewrite N1, N2, HC. destruct i as [x|], i' as [|shape buf|]; try contradiction.
    + destruct Hi as (-> & v & Lv & -> & ->). cbn [List.length Nat.eqb negb]. rewrite !map_length, Lv, Nat.eqb_refl.
      split; [|reflexivity]. exists v. auto.
    + unfold draw. destruct (HG n g) as (_ & Lw). destruct (g_laplace R0 n g) as [a g']. split; [|reflexivity]. exists a. auto.
  - apply (sp_forward _ _ _ _ _ HP).
  - apply (sp_gradg _ _ _ _ _ HP).
  - apply (sp_proxf _ _ _ _ _ HP).
  - intros. now apply exact_logpi.
  - intros p p' x x' y y' z z' g g' Hp Hx Hy Hz <-. now apply exact_step.
  - intros. now apply exact_logtrans.
  - intros g g' <-. unfold f_logrand, logrand. specialize (HU g). destruct (g_rand R0 g) as [r g']. cbn in *. split; [|reflexivity].
    exists (ln r). split; [|reflexivity]. destruct (total_order_T r 0) as [[?|?]|?]; try lra. reflexivity.
  - intros a a' b b' (r & -> & ->) (s & -> & ->). exists (r + s). split; [reflexivity|apply rtoc_add].
  - intros a a' b b' (r & -> & ->) (s & -> & ->). exists (r - s). split; [reflexivity|apply rtoc_sub].
  - intros a a' b b' (r & -> & ->) (s & -> & ->). cbn. unfold clex_ltb, Rltb. cbn.
    destruct (Rlt_dec r s), (Rlt_dec s r); try lra; try reflexivity. destruct (Rlt_dec 0 0); [lra|reflexivity].
  - intros. now apply exact_tune.
  - rewrite N1, N2, HC. cbn. intros. now apply same_map.
  - rewrite D1, D2, !map_length, Ldat. intros. now apply same_map.
  - intros a b (r & -> & ->). exists r. auto.
  - rewrite N1, N2. exists (repeat 0 n). split; [apply repeat_length|]. cbn. unfold vzero. split; symmetry; apply map_repeat.
  - rewrite D1, D2, !map_length, Ldat. exists (repeat 0 m). split; [apply repeat_length|]. unfold vzero. split; symmetry; apply map_repeat.
  - exists 0. auto.
Qed.
End E.
