(** Proofs about Mcmc.v. *)
From Coq Require Import List ZArith Lia Bool Reals Lra Psatz String.
From Coquelicot Require Import Coquelicot.
From Verif Require Import PyBase PyBaseFacts Sampler SamplerSpec SamplerMain CVec RSort Thresh ThreshSpec ThreshProof Utils UtilsSpec
  OpSpec Prior PriorSpec PriorProof Forward Mcmc McmcSpec.
Import ListNotations.
Open Scope R_scope.

(** ** step size adaptation *)

Lemma rpow_le1 : forall x, 1 <= x -> 0 < Rpower x (- (3 / 4)) <= 1.
Proof.
  intros x H. split; [apply exp_pos|]. unfold Rpower. rewrite <- exp_0.
  assert (0 <= ln x) by (rewrite <- ln_1; apply Rcomplements.ln_le; lra).
  destruct (Rle_lt_or_eq_dec 0 (ln x) H0); [left; apply exp_increasing; nra|].
  rewrite <- e. right; f_equal; ring.
Qed.
Lemma tuned_adapted : forall q d a i, 0 < n_lmda q -> tuned q d (Z.of_nat a) (Z.of_nat i) = adapted (n_lmda q) d a i.
Proof.
  intros q d a i L. unfold tuned, adapted. cbv zeta.
  rewrite <- INR_IZR_INZ. replace (IZR (Z.of_nat i + 1)) with (INR i + 1) by (rewrite plus_IZR, <- INR_IZR_INZ; reflexivity).
  rewrite Rpower_Ropp. replace (75 / 100) with (3 / 4) by lra. replace (5/10) with (1/2) by lra.
  assert (0 < Rpower (INR i + 1) (3/4)) by apply exp_pos.
  replace (d * (1 + (INR a - 1 / 2) / Rpower (INR i + 1) (3 / 4))) with
          (d + d * (INR a - 1/2) * / Rpower (INR i + 1) (3/4)) by (field; lra).
  set (x := d + _). replace (n_lmda q * (1/100000000)) with (n_lmda q / 10^8) by (simpl; field).
  unfold Rmin, Rmax. repeat destruct (Rle_dec _ _); try lra.
Qed.
Lemma adapted_facts : forall lmda d a i, 0 < lmda -> (a = 1 \/ a = 0)%nat ->
  in_band lmda (adapted lmda d a i) /\
  (in_band lmda d ->
     (a = 1%nat -> d <= adapted lmda d a i) /\ (a = 0%nat -> adapted lmda d a i <= d) /\
     Rabs (adapted lmda d a i - d) <= lmda / 4 * Rpower (INR (i + 1)) (- (3 / 4))).
Proof.
  intros lmda d a i L A. unfold in_band, adapted. cbv zeta.
  assert (B : 0 < lmda / 10 ^ 8 < lmda / 2) by (simpl; lra).
  replace (INR (i + 1)) with (INR i + 1) by (rewrite plus_INR; simpl; ring).
  assert (E := rpow_le1 (INR i + 1) ltac:(generalize (pos_INR i); lra)).
  set (r := Rpower (INR i + 1) (- (3 / 4))) in *. clearbody r. set (lo := lmda / 10^8) in *. clearbody lo.
  split.
  - unfold Rmin. repeat destruct (Rle_dec _ _); lra.
  - intros D. destruct A as [-> | ->]; simpl (INR _); unfold Rmin; repeat destruct (Rle_dec _ _);
    (split; [|split]); try (intros; discriminate); try (intros; nra); apply Rabs_le; split; nra.
Qed.

Section Tune.
Context {G : Type}.
Variables (R0 : rng G) (f : forward_op) (pr : prior_obj) (q : numparams).
Notation o := (mcmc_ops R0 f pr q).

Lemma reference_tuned : forall prm start w w' k m, 0 < n_lmda q ->
  mh_reference o prm true start w w' k m ->
  exists accs ds, i_acc (w_inst w') = Some accs /\ i_deltas (w_inst w') = Some (i_delta (w_inst w) :: ds) /\
    List.length accs = k /\ tuned_history (n_lmda q) (i_delta (w_inst w)) accs ds /\
    i_delta (w_inst w') = last ds (i_delta (w_inst w)).
Proof.
  intros prm start w w' k m L (x & g0 & tr & idx & l & S0 & MP & LT & _ & _ & _ & _ & EA & ED & xl & EL).
  unfold mh_state in *.
  exists (map (fun p => b2z (fst p)) tr), (map (fun p => snd (fst (snd p))) tr).
  split; [exact EA|]. split; [exact ED|]. split; [rewrite map_length; exact LT|]. split.
  - split; [rewrite !map_length; reflexivity|]. rewrite map_length. intros i Hi prev d.
    destruct (nth_error tr i) as [[acc [[x' d'] g']]|] eqn:EN; [|apply nth_error_None in EN; lia].
    assert (HT := mh_path_steps o true tr 0%Z _ MP i acc _ EN).
    assert (Ed : d = d').
    { unfold d. rewrite (nth_map_in _ _ _ _ (acc, (x', d', g'))) by lia. rewrite (nth_error_nth _ _ _ EN). reflexivity. }
    assert (Ea : nth i (map (fun p : bool * (vec * R * G) => b2z (fst p)) tr) 2%Z = Z.of_nat (if acc then 1 else 0)).
    { rewrite (nth_map_in _ _ _ _ (acc, (x', d', g'))) by lia. rewrite (nth_error_nth _ _ _ EN). destruct acc; reflexivity. }
    rewrite Ea. clear Ea.
    assert (Ep : exists xb gb, mh_before (x, i_delta (w_inst w), g0) tr i = (xb, prev, gb)).
    { unfold prev. destruct i; simpl; [eauto|].
      destruct (nth i tr (true, (x, i_delta (w_inst w), g0))) as [ac [[xb db] gb]] eqn:EB.
      exists xb, gb. refine (eq_trans (f_equal snd EB) _). simpl. f_equal. f_equal.
      rewrite (nth_map_in _ _ _ _ (true, (x, i_delta (w_inst w), g0))) by (simpl in Hi; lia).
      exact (eq_sym (f_equal (fun p => snd (fst (snd p))) EB)). }
    destruct Ep as (xb & gb & Ep). rewrite Ep in HT. cbn [mh_trans] in HT.
    destruct HT as (y & g1 & u & a & _ & _ & _ & _ & _ & HD). rewrite Z.add_0_l in HD.
    assert (HD' : d = adapted (n_lmda q) prev (if acc then 1 else 0)%nat i).
    { rewrite Ed, HD. rewrite <- tuned_adapted by exact L. destruct acc; reflexivity. }
    assert (AF := adapted_facts (n_lmda q) prev (if acc then 1 else 0)%nat i L ltac:(destruct acc; auto)).
    rewrite <- HD' in AF. destruct AF as [A1 A2].
    split; [exact A1|]. split; [destruct acc; auto|]. split; [rewrite Nat2Z.id; exact HD'|].
    intros B. destruct (A2 B) as (A3 & A4 & A5). split; [|split]; auto; intros E; [apply A3|apply A4]; destruct acc; auto; discriminate.
  - clear - EL. revert EL. destruct tr as [|p t] using rev_ind; simpl; intros EL; [congruence|].
    rewrite map_app. simpl. rewrite last_last in EL |- *. rewrite EL. reflexivity.
Qed.
Lemma reference_untuned : forall prm start w w' k m,
  mh_reference o prm false start w w' k m ->
  i_deltas (w_inst w') = Some [i_delta (w_inst w)] /\ i_delta (w_inst w') = i_delta (w_inst w).
Proof.
  intros prm start w w' k m (x & g0 & tr & idx & l & S0 & MP & LT & _ & _ & _ & _ & EA & ED & xl & EL).
  split; [exact ED|].
  assert (H : forall tr i s, mh_path o false i s tr -> snd (fst (snd (last tr (true, s)))) = snd (fst s)).
  { clear. induction tr as [|[a s'] t IH]; intros i s H; [reflexivity|]. inversion H as [|i0 s0 a0 s1 l0 HT HP]; subst.
    assert (E : snd (fst s') = snd (fst s)).
    { destruct s as [[? ?] ?], s' as [[? ?] ?]. cbn in HT. destruct HT as (? & ? & ? & ? & _ & _ & _ & _ & _ & E). exact E. }
    specialize (IH _ _ HP). destruct t as [|b t]; [exact E|]. rewrite <- E, <- IH.
    change (last ((a, s') :: b :: t) (true, s)) with (last (b :: t) (true, s)).
    f_equal. f_equal. f_equal. clear. revert b; induction t as [|c t IH]; intros b; [reflexivity|]. exact (IH c). }
  specialize (H tr 0%Z _ MP). exact (eq_trans (eq_sym (f_equal (fun p => snd (fst p)) EL)) H).
Qed.
End Tune.
