(** The path problem of FloatOps.v in exact arithmetic and its rounding errors
    (C64). *)
From Coq Require Import List ZArith Lia Bool Reals Lra Psatz String.
From Coquelicot Require Import Coquelicot.
From Verif Require Import PyBase PyBaseFacts CVec OpSpec Forward FwdProof Measure RSort Thresh ThreshSpec ThreshProof Prior Mcmc
  Sampler StableProof Ieee IeeeProof ParamSpec RepSpec ExactProof RoundProof FloatOps.
Import ListNotations.
Open Scope string_scope.
Notation length := List.length.
Open Scope R_scope.

(** ** Real sparse matrices *)

Definition frow (r : list (nat * R)) : list (nat * float) := map (fun p => (fst p, Fin (snd p))) r.
Definition frows (W : list (list (nat * R))) := map frow W.
(** a row times a vector *)
Definition sp (r : list (nat * R)) (v : list R) : R := rsum (map (fun p => snd p * nth (fst p) v 0) r).
(** the rows of the transpose *)
Definition adj (n : nat) (W : list (list (nat * R))) : list (list (nat * R)) :=
  map (fun j => List.concat (map (fun kr => map (fun p => (fst kr, snd p)) (filter (fun p => Nat.eqb (fst p) j) (snd kr)))
                            (combine (seq 0 (length W)) W)))
      (seq 0 n).
Definition in_cols (n : nat) (W : list (list (nat * R))) : Prop := List.Forall (List.Forall (fun p => (fst p < n)%nat)) W.
(** the matrix: entries stored twice are added *)
Definition dense (n : nat) (W : list (list (nat * R))) : cmat :=
  mkMat (length W) n (fun i j => RtoC (rsum (map snd (filter (fun p => Nat.eqb (fst p) j) (nth i W []))))).

Lemma rsum_app : forall a b, rsum (a ++ b) = rsum a + rsum b.
Proof. induction a as [|x a IH]; intros b; [change (rsum b = 0 + rsum b); ring|]. change (x + rsum (a ++ b) = x + rsum a + rsum b). rewrite IH. ring. Qed.

Lemma dense_matvec : forall n W v, in_cols n W -> length v = n ->
  matvec (dense n W) (map RtoC v) = map RtoC (map (fun r => sp r v) W).
Proof.
  intros n W v IC L. unfold matvec. cbn [dense m_rows m_cols m_ent].
  transitivity (map (fun i => RtoC (sp (nth i W []) v)) (seq 0 (length W))).
  - apply map_ext_in. intros i Hi. apply in_seq in Hi. unfold sp. rewrite <- (stored_sum n v (nth i W [])).
    + rewrite <- csum_RtoC, map_map. f_equal. apply map_ext. intros j. rewrite (map_nth RtoC). apply rtoc_mul.
    + unfold in_cols in IC. rewrite Forall_forall in IC. apply IC, nth_In. lia.
  - rewrite map_map. clear. induction W as [|r W IH]; [reflexivity|]. cbn [length seq map nth]. f_equal. rewrite <- seq_shift, map_map. exact IH.
Qed.

Lemma adj_entry : forall n W i j, (i < n)%nat -> (j < length W)%nat ->
  rsum (map snd (filter (fun p => Nat.eqb (fst p) j) (nth i (adj n W) []))) =
  rsum (map snd (filter (fun p => Nat.eqb (fst p) i) (nth j W []))).
Proof.
  intros n W i j Hi Hj. unfold adj.
  assert (E : nth i (map (fun j0 => List.concat (map (fun kr : nat * list (nat * R) => map (fun p => (fst kr, snd p)) (filter (fun p => Nat.eqb (fst p) j0) (snd kr)))
                            (combine (seq 0 (length W)) W))) (seq 0 n)) [] =
              List.concat (map (fun kr : nat * list (nat * R) => map (fun p => (fst kr, snd p)) (filter (fun p => Nat.eqb (fst p) i) (snd kr)))
                            (combine (seq 0 (length W)) W))).
  { erewrite nth_indep by (rewrite map_length, seq_length; lia). rewrite map_nth with (d := 0%nat). now rewrite seq_nth. }
  rewrite E. clear E.
  assert (H : forall s W, rsum (map snd (filter (fun p => Nat.eqb (fst p) j)
     (List.concat (map (fun kr : nat * list (nat * R) => map (fun p => (fst kr, snd p)) (filter (fun p => Nat.eqb (fst p) i) (snd kr))) (combine (seq s (length W)) W))))) =
     if (s <=? j)%nat then rsum (map snd (filter (fun p => Nat.eqb (fst p) i) (nth (j - s) W []))) else 0).
  { clear. intros s W. revert s. induction W as [|r W IH]; intros s.
    - cbn. destruct (s <=? j)%nat; [|reflexivity]. destruct (j - s)%nat; reflexivity.
    - cbn [length seq combine map List.concat]. rewrite filter_app, map_app, rsum_app, (IH (S s)).
      assert (Q : rsum (map snd (filter (fun p => Nat.eqb (fst p) j) (map (fun p : nat * R => (fst (s, r), snd p)) (filter (fun p => Nat.eqb (fst p) i) (snd (s, r)))))) =
                  if Nat.eqb s j then rsum (map snd (filter (fun p => Nat.eqb (fst p) i) r)) else 0).
      { cbn [fst snd]. generalize (filter (fun p : nat * R => Nat.eqb (fst p) i) r). intros l. destruct (Nat.eqb_spec s j) as [->|N].
        - f_equal. induction l as [|p l IHl]; [reflexivity|]. cbn. rewrite Nat.eqb_refl. cbn. now rewrite IHl.
        - induction l as [|p l IHl]; [reflexivity|]. cbn. destruct (Nat.eqb_spec s j); [contradiction|exact IHl]. }
      rewrite Q. clear Q. destruct (Nat.eqb_spec s j) as [->|N].
      + rewrite Nat.leb_refl, Nat.sub_diag. destruct (Nat.leb_spec (S j) j); [lia|]. cbn [nth]. ring.
      + destruct (Nat.leb_spec (S s) j), (Nat.leb_spec s j); try lia; [|ring]. replace (j - s)%nat with (S (j - S s)) by lia. cbn [nth]. ring. }
  rewrite H. cbn [Nat.leb]. now rewrite Nat.sub_0_r.
Qed.

Lemma adj_length : forall n W, length (adj n W) = n.
Proof. intros. unfold adj. now rewrite map_length, seq_length. Qed.
Lemma adj_cols : forall n W, in_cols (length W) (adj n W).
Proof.
  intros n W. unfold in_cols, adj. apply Forall_forall. intros r Hr. apply in_map_iff in Hr. destruct Hr as (j & <- & _).
  apply Forall_forall. intros p Hp. apply in_concat in Hp. destruct Hp as (l & Hl & Hp). apply in_map_iff in Hl. destruct Hl as ((k & q) & <- & Hk).
  apply in_map_iff in Hp. destruct Hp as (u & <- & _). cbn [fst]. apply in_combine_l in Hk. apply in_seq in Hk. lia.
Qed.

Lemma adjoint_matvec : forall n W v, length v = length W ->
  matvec (getH (dense n W)) (map RtoC v) = map RtoC (map (fun r => sp r v) (adj n W)).
Proof.
  intros n W v L. rewrite <- (dense_matvec (length W) (adj n W) v (adj_cols n W) L). unfold matvec. cbn [dense getH m_rows m_cols m_ent].
  rewrite adj_length. apply map_ext_in. intros i Hi. apply in_seq in Hi. f_equal. apply map_ext_in. intros j Hj. apply in_seq in Hj. f_equal.
  rewrite adj_entry by lia. apply C_ext; cbn; [reflexivity|ring].
Qed.

(** f_adjoint_rows stores the same *)
Lemma frows_adj : forall n W, f_adjoint_rows n (frows W) = frows (adj n W).
Proof.
  intros n W. unfold f_adjoint_rows, adj, frows. rewrite map_map, map_length. apply map_ext. intros j. unfold frow at 2. rewrite concat_map, map_map. f_equal.
  generalize 0%nat. induction W as [|r W IH]; intros s; [reflexivity|]. cbn [length seq map combine]. rewrite IH. f_equal. cbn [fst snd].
  unfold frow. induction r as [|p r IHr]; [reflexivity|]. cbn. destruct (Nat.eqb (fst p) j); cbn; now rewrite IHr.
Qed.

(** ** soft on real numbers *)
Definition rsgn (x : R) : R := if Rlt_dec x 0 then -1 else if Rlt_dec 0 x then 1 else 0.
Definition rsoft (t x : R) : R := if Rle_dec (Rabs x) t then 0 else rsgn x * (Rabs x - t).
Lemma soft_real : forall t x, soft (map RtoC x) (TScal t) = Ok (map RtoC (map (rsoft t) x)).
Proof.
  intros t x. rewrite soft_scal. f_equal. rewrite !map_map. apply map_ext. intros a. unfold soft1, rsoft. rewrite Cmod_R.
  destruct (Rle_dec (Rabs a) t); [reflexivity|]. unfold rsgn. destruct (Req_EM_T (Rabs a) 0) as [E|E].
  - assert (a = 0) by (destruct (Req_dec a 0); [auto|apply Rabs_no_R0 in H; contradiction]). subst a. destruct (Rlt_dec 0 0); [lra|]. apply C_ext; cbn; ring.
  - destruct (Rlt_dec a 0).
    + rewrite Rabs_left in * by auto. apply C_ext; cbn; field; lra.
    + destruct (Rlt_dec 0 a); [|exfalso; apply E; replace a with 0 by lra; apply Rabs_R0]. rewrite Rabs_pos_eq in * by lra. apply C_ext; cbn; field; lra.
Qed.

(** ** The exact problem *)
Definition path_meas (n : nat) (W : list (list (nat * R))) : measurement := mkMeas (Path_forward (dense n W)) (Path_adjoint (dense n W)).
(** the operator with the weights [ws] as inverse variances *)
Definition path_fwd (n : nat) (W : list (list (nat * R))) (ys ws : list R) : forward_op :=
  mkFwd (mkData (map RtoC ys) false) (diags (map RtoC ws)) "analysis" None (Some (path_meas n W)) (Some n).
Definition l1_prior (t : R) : prior_obj := mkPrior (fun X => Ok (L1_prior X)) (fun X => soft X (TScal t)).
(** the gradient *)
Definition grad (n : nat) (W : list (list (nat * R))) (ys ws d : list R) : list R :=
  map (fun r => sp r (map2 Rmult ws (map2 Rminus d ys))) (adj n W).

Lemma forward_exact : forall n W ys ws x, in_cols n W -> length x = n ->
  fo_forward (path_fwd n W ys ws) (map RtoC x) = Ok (map RtoC (map (fun r => sp r x) W)).
Proof.
  intros n W ys ws x IC L. cbn. unfold Path_forward. cbn [dense m_cols]. rewrite map_length, L, Nat.eqb_refl.
  rewrite np_dot_ok by (rewrite map_length; exact L). now rewrite dense_matvec.
Qed.
Lemma gradg_exact : forall n W ys ws d, length d = length W -> length ys = length W -> length ws = length W ->
  fo_gradg (path_fwd n W ys ws) (map RtoC d) = Ok (map RtoC (grad n W ys ws d)).
Proof.
  intros n W ys ws d L1 L2 L3. cbn. unfold gradg_analysis. cbn. rewrite np_sub_r by congruence. cbn [rbind].
  assert (Ld : length (map2 Rminus d ys) = length W) by (rewrite map2_len; congruence).
  rewrite np_dot_ok by (cbn; rewrite !map_length; congruence). cbn [rbind].
  rewrite matvec_diags by (rewrite !map_length; congruence). rewrite (map2_rtoc Cmult Rmult) by apply rtoc_mul.
  assert (Lw : length (map2 Rmult ws (map2 Rminus d ys)) = length W) by (rewrite map2_len; congruence).
  unfold Path_adjoint. cbn [dense m_rows]. rewrite map_length, Lw, Nat.eqb_refl. rewrite np_dot_ok by (cbn; rewrite map_length; exact Lw).
  now rewrite adjoint_matvec.
Qed.

(** ** Exact floats *)
Lemma spdot_fin : forall r v, fspdot Fin (frow r) (map Fin v) = Fin (sp r v).
Proof.
  intros r v. unfold fspdot, sp. rewrite <- fsum_fin. f_equal. unfold frow. rewrite !map_map. apply map_ext. intros (k & a). cbn [fst snd].
  rewrite (map_nth Fin). reflexivity.
Qed.
Lemma soft1_fin : forall t x, f_soft1 Fin (Fin t) (Fin x) = Fin (rsoft t x).
Proof.
  intros t x. unfold f_soft1, rsoft. cbn. destruct (Rle_dec (Rabs x) t); [reflexivity|]. unfold f_sign1, rsgn. cbn.
  destruct (Req_EM_T (Rabs x) 0) as [E|E]; cbn.
  - assert (x = 0) by (destruct (Req_dec x 0); [auto|apply Rabs_no_R0 in H; contradiction]). subst x. destruct (Req_EM_T 1 0); [lra|].
    destruct (Rlt_dec 0 0); [lra|]. cbn. f_equal. field.
  - destruct (Req_EM_T (Rabs x) 0); [contradiction|]. cbn. f_equal. destruct (Rlt_dec x 0).
    + rewrite Rabs_left by auto. field. lra.
    + destruct (Rlt_dec 0 x); [|exfalso; apply E; replace x with 0 by lra; apply Rabs_R0]. rewrite Rabs_pos_eq by lra. field. lra.
Qed.
Lemma weigh_fin : forall ws v, length ws = length v -> f_weigh Fin (map Fin ws) (map Fin v) = Ok (map Fin (map2 Rmult ws v)).
Proof.
  intros ws v L. unfold f_weigh. apply fzip_fin; [|exact L]. intros x y. cbn.
  destruct (Req_EM_T x 0) as [->|]; [cbn; f_equal; ring|]. destruct (Req_EM_T y 0) as [->|]; cbn; f_equal; ring.
Qed.

Lemma exact_paths : forall n W ys ws t, in_cols n W -> length ys = length W -> length ws = length W ->
  same_problem n (length W) (f_paths Fin n (frows W) (map Fin ys) (map Fin ws) (FScal (Fin t))) (path_fwd n W ys ws) (l1_prior t).
Proof.
  intros n W ys ws t IC L1 L2. constructor.
  - reflexivity.
  - reflexivity.
  - exists ys. auto.
  - exists (map (fun p => [p]) (combine (seq 0 (length ws)) ws)).
    assert (LC : length (map (fun p : nat * R => [p]) (combine (seq 0 (length ws)) ws)) = length W) by (rewrite map_length, combine_length, seq_length; lia).
    split; [exact LC|]. split.
    { apply Forall_forall. intros r Hr. apply in_map_iff in Hr. destruct Hr as ((k & a) & <- & Hk). constructor; [|constructor].
      apply in_combine_l in Hk. apply in_seq in Hk. cbn. lia. }
    split.
    { cbn [f_paths fp_invcov]. rewrite map_map, map_length. cbn [map fst snd]. generalize 0%nat. clear. induction ws as [|a ws IH]; intros s; [reflexivity|]. cbn. now rewrite IH. }
    cbn [path_fwd fo_invcov diags m_rows m_cols m_ent]. rewrite map_length. split; [exact L2|]. split; [exact L2|].
    intros i j Hi Hj. assert (E : nth i (map (fun p : nat * R => [p]) (combine (seq 0 (length ws)) ws)) [] = [(i, nth i ws 0)]).
    { assert (Q : forall (l : list R) s i, (i < length l)%nat -> nth i (map (fun p : nat * R => [p]) (combine (seq s (length l)) l)) [] = [((s + i)%nat, nth i l 0)]).
      { clear. induction l as [|a l IH]; intros s i Hi; [cbn in Hi; lia|]. destruct i as [|i]; cbn; [now rewrite Nat.add_0_r|].
        cbn in Hi. rewrite IH by lia. replace (s + S i)%nat with (S s + i)%nat by lia. reflexivity. }
      rewrite Q by (rewrite L2; exact Hi). reflexivity. }
    rewrite E. cbn. rewrite (map_nth RtoC). destruct (Nat.eqb i j); cbn; [|reflexivity]. f_equal. unfold rsum. cbn. ring.
  - intros x y (v & Lv & -> & ->). rewrite forward_exact by auto. cbn [f_paths fp_forward]. unfold f_path_forward. rewrite map_length, Lv, Nat.eqb_refl. cbn.
    exists (map (fun r => sp r v) W). split; [apply map_length|]. split; [|reflexivity]. unfold frows. rewrite !map_map. apply map_ext. intros r. apply spdot_fin.
  - intros x y (v & Lv & -> & ->). rewrite gradg_exact by congruence. cbn [f_paths fp_gradg]. unfold f_gradg.
    rewrite (fzip_fin (fsub Fin) Rminus) by (try apply fsub_fin; congruence). cbn [rbind].
    assert (Ld : length (map2 Rminus v ys) = length W) by (rewrite map2_len; congruence).
    rewrite weigh_fin by congruence. cbn [rbind]. unfold f_path_adjoint, frows at 1. rewrite !map_length, map2_len by congruence. rewrite L2, Nat.eqb_refl. cbn.
    exists (grad n W ys ws v). split; [unfold grad; rewrite map_length; apply adj_length|]. split; [|reflexivity].
    rewrite frows_adj. unfold frows, grad. rewrite !map_map. apply map_ext. intros r. apply spdot_fin.
  - intros x y (v & Lv & -> & ->). cbn [l1_prior pr_proxf f_paths fp_proxf f_soft]. rewrite soft_real. cbn.
    exists (map (rsoft t) v). split; [now rewrite map_length|]. split; [|reflexivity]. rewrite !map_map. apply map_ext. intros a. apply soft1_fin.
  - intros x y (v & Lv & -> & ->). cbn. unfold f_l1, L1_prior, vabs. rewrite !map_map. cbn [fabs].
    replace (map (fun x => Fin (Rabs x)) v) with (map Fin (map Rabs v)) by now rewrite map_map. rewrite fsum_fin. f_equal. f_equal. apply map_ext. intros a. now rewrite Cmod_R.
Qed.
