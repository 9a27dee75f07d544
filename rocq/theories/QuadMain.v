From Coq Require Import List ZArith Lia Bool Reals Lra Psatz Arith.
From Coquelicot Require Import Coquelicot.
From Verif Require Import PyBase CVec TrigSum Quad QuadSpec QuadProof.
Import ListNotations.
Open Scope R_scope.

(** ** complex sums over ranges *)
Definition csumn (n : nat) (f : nat -> C) : C := csum (map f (seq 0 n)).
Lemma csumn_ext : forall n f g, (forall i, (i < n)%nat -> f i = g i) -> csumn n f = csumn n g.
Proof. intros; unfold csumn; apply csum_map_ext; intros a Ha; apply in_seq in Ha; apply H; lia. Qed.
Lemma csumn_plus : forall n f g, csumn n (fun i => f i + g i)%C = (csumn n f + csumn n g)%C.
Proof. intros; apply csum_map2_plus. Qed.
Lemma csumn_scal : forall n c f, csumn n (fun i => c * f i)%C = (c * csumn n f)%C.
Proof. intros; apply csum_map_scal. Qed.
Lemma csumn_zero : forall n f, (forall i, (i < n)%nat -> f i = RtoC 0) -> csumn n f = RtoC 0.
Proof. intros; unfold csumn; apply csum_map_0; intros a Ha; apply in_seq in Ha; apply H; lia. Qed.
Lemma csumn_const : forall n c, csumn n (fun _ => c) = (RtoC (INR n) * c)%C.
Proof.
  induction n; intros; [unfold csumn; simpl; ring|].
  unfold csumn in *. rewrite seq_S, map_app, csum_app, IHn. simpl map. simpl csum.
  rewrite S_INR, RtoC_plus. ring.
Qed.
Lemma csumn_S : forall n f, csumn (S n) f = (csumn n f + f n)%C.
Proof. intros; unfold csumn. rewrite seq_S, map_app, csum_app. simpl. ring. Qed.
Lemma csumn_exchange : forall n m (f : nat -> nat -> C),
  csumn n (fun i => csumn m (fun j => f i j)) = csumn m (fun j => csumn n (fun i => f i j)).
Proof. intros; apply csum_exchange. Qed.
Lemma csumn_RtoC : forall n f, csumn n (fun i => RtoC (f i)) = RtoC (rsumn n f).
Proof. intros; unfold csumn, rsumn. rewrite <- csum_RtoC, map_map. reflexivity. Qed.
Lemma seq_csumn : forall n f, csum (map f (seq 1 n)) = csumn n (fun i => f (S i)).
Proof. intros; unfold csumn. rewrite <- seq_shift, map_map. reflexivity. Qed.
Lemma csumn_single : forall n k f, (k < n)%nat -> (forall i, (i < n)%nat -> i <> k -> f i = RtoC 0) ->
  csumn n f = f k.
Proof.
  induction n; intros k f Hk H; [lia|]. rewrite csumn_S. destruct (Nat.eq_dec k n).
  - subst. rewrite csumn_zero; [ring|]. intros; apply H; lia.
  - rewrite (IHn k); [|lia|intros; apply H; lia]. rewrite (H n) by lia. ring.
Qed.

(** ** polynomials in cos(theta) are cosine sums *)
Definition cos_sum (K : nat) (h : R -> C) : Prop :=
  exists a : nat -> C, forall th, h th = csumn K (fun k => a k * RtoC (cos (INR k * th)))%C.

Lemma cos_sum_zero : forall K, cos_sum K (fun _ => RtoC 0).
Proof. intros; exists (fun _ => RtoC 0); intros. symmetry; apply csumn_zero; intros; ring. Qed.
Lemma cos_sum_plus : forall K g h, cos_sum K g -> cos_sum K h -> cos_sum K (fun x => g x + h x)%C.
Proof.
  intros K g h [a A] [b B]. exists (fun k => a k + b k)%C. intros th.
  rewrite A, B, <- csumn_plus. apply csumn_ext; intros; ring.
Qed.
Lemma cos_sum_scal : forall K c h, cos_sum K h -> cos_sum K (fun x => c * h x)%C.
Proof.
  intros K c h [a A]. exists (fun k => c * a k)%C. intros th.
  rewrite A, <- csumn_scal. apply csumn_ext; intros; ring.
Qed.
Lemma cos_sum_ext : forall K g h, (forall x, g x = h x) -> cos_sum K g -> cos_sum K h.
Proof. intros K g h E [a A]. exists a. intros; rewrite <- E; auto. Qed.
Lemma cos_sum_one : forall K k, (k < K)%nat -> cos_sum K (fun x => RtoC (cos (INR k * x))).
Proof.
  intros K k H. exists (fun j => if Nat.eqb j k then RtoC 1 else RtoC 0). intros th.
  rewrite (csumn_single K k); auto.
  - rewrite Nat.eqb_refl. ring.
  - intros i _ Hi. destruct (Nat.eqb_spec i k); [congruence|ring].
Qed.
Lemma cos_sum_sum : forall K n (f : nat -> R -> C), (forall i, (i < n)%nat -> cos_sum K (f i)) ->
  cos_sum K (fun x => csumn n (fun i => f i x)).
Proof.
  induction n; intros f H.
  - apply cos_sum_zero.
  - apply cos_sum_ext with (fun x => csumn n (fun i => f i x) + f n x)%C.
    + intros; rewrite csumn_S; reflexivity.
    + apply cos_sum_plus; [apply IHn; intros; apply H; lia|apply H; lia].
Qed.
Lemma cos_sum_times_cos : forall K h, cos_sum K h -> cos_sum (S K) (fun x => RtoC (cos x) * h x)%C.
Proof.
  intros K h [a A].
  apply cos_sum_ext with (fun x => csumn K (fun k => a k * (RtoC (cos x) * RtoC (cos (INR k * x))))%C).
  { intros x. rewrite A, <- csumn_scal. apply csumn_ext; intros; ring. }
  apply cos_sum_sum. intros k Hk. apply cos_sum_scal. destruct k.
  - apply cos_sum_ext with (fun x => RtoC (cos (INR 1 * x))).
    + intros x. simpl INR. rewrite Rmult_0_l, cos_0, Rmult_1_l. ring.
    + apply cos_sum_one. lia.
  - apply cos_sum_ext with (fun x => RtoC (/ 2) * (RtoC (cos (INR (S (S k)) * x)) + RtoC (cos (INR k * x))))%C.
    + intros x. rewrite <- RtoC_plus, <- !RtoC_mult. f_equal.
      replace (INR (S (S k)) * x) with (INR (S k) * x + x) by (rewrite !S_INR; ring).
      replace (INR k * x) with (INR (S k) * x - x) by (rewrite S_INR; ring).
      rewrite cos_plus, cos_minus. field.
    + apply cos_sum_scal, cos_sum_plus; apply cos_sum_one; lia.
Qed.
Lemma cos_sum_mono : forall K K' h, (K <= K')%nat -> cos_sum K h -> cos_sum K' h.
Proof.
  intros K K' h HK [a A]. exists (fun k => if Nat.ltb k K then a k else RtoC 0). intros th.
  rewrite A. clear A. induction HK.
  - apply csumn_ext; intros i Hi. apply Nat.ltb_lt in Hi. rewrite Hi; reflexivity.
  - rewrite csumn_S, IHHK. destruct (Nat.ltb_spec m K); [lia|]. ring.
Qed.
Lemma cos_pow_sum : forall k, cos_sum (S k) (fun x => RtoC (cos x ^ k)).
Proof.
  induction k.
  - apply cos_sum_ext with (fun x => RtoC (cos (INR 0 * x))).
    + intros; simpl. rewrite Rmult_0_l, cos_0. reflexivity.
    + apply cos_sum_one; lia.
  - apply cos_sum_ext with (fun x => RtoC (cos x) * RtoC (cos x ^ k))%C.
    + intros; simpl. rewrite RtoC_mult. reflexivity.
    + apply cos_sum_times_cos; auto.
Qed.
Lemma cos_poly_sum : forall L (c : nat -> C),
  cos_sum L (fun x => csum (map (fun k => c k * RtoC (cos x ^ k))%C (seq 0 L))).
Proof.
  intros L c. apply cos_sum_sum with (f := fun k x => (c k * RtoC (cos x ^ k))%C).
  intros i Hi. apply cos_sum_scal. apply cos_sum_mono with (S i); [lia|apply cos_pow_sum].
Qed.

(** ** complex integrals *)
Lemma is_CInt_plus : forall f g a b u v, is_CInt f a b u -> is_CInt g a b v ->
  is_CInt (fun x => f x + g x)%C a b (u + v)%C.
Proof.
  intros f g a b u v [A B] [A' B']. split.
  - apply (is_RInt_plus (fun x => Re (f x)) (fun x => Re (g x))); auto.
  - apply (is_RInt_plus (fun x => Im (f x)) (fun x => Im (g x))); auto.
Qed.
Lemma is_CInt_scal : forall c f a b u, is_CInt f a b u -> is_CInt (fun x => c * f x)%C a b (c * u)%C.
Proof.
  intros c f a b u [A B]. split.
  - apply (is_RInt_minus (fun x => fst c * Re (f x)) (fun x => snd c * Im (f x))).
    + apply (is_RInt_scal (fun x => Re (f x))); auto.
    + apply (is_RInt_scal (fun x => Im (f x))); auto.
  - apply (is_RInt_plus (fun x => fst c * Im (f x)) (fun x => snd c * Re (f x))).
    + apply (is_RInt_scal (fun x => Im (f x))); auto.
    + apply (is_RInt_scal (fun x => Re (f x))); auto.
Qed.
Lemma is_CInt_const : forall c a b, is_CInt (fun _ => c) a b (RtoC (b - a) * c)%C.
Proof.
  intros c a b. split.
  - replace (Re (RtoC (b - a) * c)%C) with (scal (b - a) (Re c)) by (unfold Re, scal; simpl; unfold mult; simpl; ring).
    apply (is_RInt_const a b (Re c)).
  - replace (Im (RtoC (b - a) * c)%C) with (scal (b - a) (Im c)) by (unfold Im, scal; simpl; unfold mult; simpl; ring).
    apply (is_RInt_const a b (Im c)).
Qed.
Lemma is_CInt_ext : forall f g a b v, (forall x, f x = g x) -> is_CInt f a b v -> is_CInt g a b v.
Proof.
  intros f g a b v E [A B]. split; [eapply is_RInt_ext; [|apply A]|eapply is_RInt_ext; [|apply B]];
    intros x _; simpl; rewrite E; reflexivity.
Qed.
Lemma is_CInt_sum : forall n (f : nat -> R -> C) a b (v : nat -> C),
  (forall i, (i < n)%nat -> is_CInt (f i) a b (v i)) ->
  is_CInt (fun x => csumn n (fun i => f i x)) a b (csumn n v).
Proof.
  induction n; intros.
  - replace (csumn 0 v) with (RtoC (b - a) * RtoC 0)%C by (unfold csumn; simpl; ring). apply is_CInt_const.
  - rewrite csumn_S. apply is_CInt_ext with (fun x => csumn n (fun i => f i x) + f n x)%C.
    + intros; rewrite csumn_S; reflexivity.
    + apply is_CInt_plus; [apply IHn; intros; apply H; lia|apply H; lia].
Qed.
Lemma is_CInt_real : forall f a b v, is_RInt f a b v -> is_CInt (fun x => RtoC (f x)) a b (RtoC v).
Proof.
  intros f a b v H. split; [exact H|].
  pose proof (is_RInt_const (V := R_NormedModule) a b 0) as Z.
  replace (Im (RtoC v)) with (scal (b - a) (0 : R_NormedModule)); [exact Z|].
  unfold scal; simpl; unfold mult; simpl; ring.
Qed.
Lemma is_CInt_cexpi : forall m, (0 < m)%nat -> is_CInt (fun x => cexpi (INR m * x)) 0 (2 * PI) (RtoC 0).
Proof. intros m H. split; [apply is_RInt_cos_circle|apply is_RInt_sin_circle]; auto. Qed.
Lemma is_CInt_cexpi_neg : forall m, (0 < m)%nat -> is_CInt (fun x => cexpi (- (INR m * x))) 0 (2 * PI) (RtoC 0).
Proof.
  intros m H. split.
  - apply is_RInt_ext with (fun x => cos (INR m * x)); [intros; simpl; rewrite cos_neg; reflexivity|].
    apply is_RInt_cos_circle; auto.
  - apply is_RInt_ext with (fun x => opp (sin (INR m * x))).
    { intros; unfold cexpi; simpl. rewrite sin_neg. reflexivity. }
    replace (Im (RtoC 0)) with (opp 0) by (simpl; unfold opp; simpl; ring).
    apply (is_RInt_opp (fun x => sin (INR m * x))). apply is_RInt_sin_circle; auto.
Qed.

(** ** exactness *)
Lemma sum_cexpi : forall L m, (1 <= m < L)%nat ->
  csumn (2 * L - 1) (fun p => cexpi (INR m * mw_phi L p)) = RtoC 0.
Proof.
  intros L m H. unfold csumn. apply C_ext; change fst with Re; change snd with Im; rewrite ?Re_csum, ?Im_csum, map_map.
  - change (rsumn (2 * L - 1) (fun p => cos (INR m * (2 * PI * INR p / INR (2 * L - 1)))) = 0).
    apply sum_cos_grid; lia.
  - change (rsumn (2 * L - 1) (fun p => sin (INR m * (2 * PI * INR p / INR (2 * L - 1)))) = 0).
    apply sum_sin_grid; lia.
Qed.
Lemma sum_cexpi_neg : forall L m, (1 <= m < L)%nat ->
  csumn (2 * L - 1) (fun p => cexpi (- (INR m * mw_phi L p))) = RtoC 0.
Proof.
  intros L m H. rewrite (csumn_ext _ _ (fun p => Cconj (cexpi (INR m * mw_phi L p)))).
  - unfold csumn. rewrite <- (map_map (fun p => cexpi (INR m * mw_phi L p)) Cconj), <- csum_conj.
    change (Cconj (csumn (2 * L - 1) (fun p => cexpi (INR m * mw_phi L p))) = RtoC 0).
    rewrite sum_cexpi by auto. apply Cconj_R.
  - intros; unfold cexpi, Cconj; simpl. rewrite cos_neg, sin_neg. reflexivity.
Qed.

Lemma weighted_rings : forall (w : nat -> R) (g : nat -> nat -> C) n l,
  csum (map2 Cmult (map RtoC (flat_map (fun t => repeat (w t) n) l))
                   (flat_map (fun t => map (g t) (seq 0 n)) l))
  = csum (map (fun t => RtoC (w t) * csumn n (g t))%C l).
Proof.
  induction l; simpl; auto.
  rewrite map_app, map2_app by (rewrite map_length, map_length, seq_length, repeat_length; auto).
  rewrite csum_app, IHl. f_equal. unfold csumn. rewrite <- csum_map_scal. f_equal. clear.
  generalize (seq_length n 0). generalize (seq 0 n). intros l H. subst n.
  induction l; simpl; auto. f_equal; auto.
Qed.

Lemma sample_length : forall f L, length (mw_sample f L) = (L * (2 * L - 1))%nat.
Proof.
  intros f L. unfold mw_sample. set (n := (2 * L - 1)%nat). rewrite <- (seq_length L 0) at 2.
  induction (seq 0 L); simpl; auto. rewrite app_length, map_length, seq_length, IHl. reflexivity.
Qed.
Lemma flat_repeat_length : forall {A} (w : nat -> A) n l, length (flat_map (fun t => repeat (w t) n) l) = (length l * n)%nat.
Proof. induction l; simpl; auto. rewrite app_length, repeat_length, IHl. reflexivity. Qed.

Lemma integrate_rings : forall f L, (1 <= L)%nat ->
  s2_integrate (mw_sample f L) (Z.of_nat L) =
  Ok (csumn L (fun t => RtoC (ring_weight L t) * csumn (2 * L - 1) (fun p => f (mw_theta L t) (mw_phi L p)))%C).
Proof.
  intros f L HL. unfold s2_integrate. rewrite map_weights_closed by auto. simpl rbind.
  unfold np_mul. rewrite np_bin_same.
  - simpl rbind. f_equal. apply (weighted_rings (ring_weight L) (fun t p => f (mw_theta L t) (mw_phi L p))).
  - rewrite map_length, flat_repeat_length, seq_length, sample_length. reflexivity.
Qed.

Lemma quad_exact : forall L f, (1 <= L)%nat -> band_limited L f ->
  exists I, s2_integrate (mw_sample f L) (Z.of_nat L) = Ok I /\ is_sphere_integral f I.
Proof.
  intros L f HL [c [gp [gm Hf]]].
  destruct (cos_poly_sum L c) as [a Ha].
  set (A := fun th => csum (map (fun k => (c k * RtoC (cos th ^ k))%C) (seq 0 L))) in *.
  set (n := (2 * L - 1)%nat).
  assert (N : 0 < INR n) by (apply lt_0_INR; unfold n; lia).
  exists (csumn L (fun k => a k * RtoC (2 * PI * wcos k))%C). split.
  - rewrite integrate_rings by auto. f_equal. fold n.
    assert (P : forall th, csumn n (fun p => f th (mw_phi L p)) = (RtoC (INR n) * A th)%C).
    { intros th. rewrite (csumn_ext n _ (fun p => A th + csumn (L - 1) (fun i =>
          gp (S i) th * cexpi (INR (S i) * mw_phi L p) + gm (S i) th * cexpi (- (INR (S i) * mw_phi L p))))%C).
      2:{ intros p _. rewrite Hf. rewrite seq_csumn. reflexivity. }
      rewrite csumn_plus, csumn_const, csumn_exchange.
      rewrite (csumn_zero (L - 1)); [ring|]. intros i Hi.
      rewrite csumn_plus, !csumn_scal. unfold n. rewrite sum_cexpi, sum_cexpi_neg by lia. ring. }
    rewrite (csumn_ext L _ (fun t => csumn L (fun k => a k * RtoC (INR n) * RtoC (ring_weight L t * cos (INR k * mw_theta L t)))%C)).
    2:{ intros t _. rewrite P. unfold A. rewrite Ha, <- !csumn_scal. apply csumn_ext; intros k _. rewrite RtoC_mult. ring. }
    rewrite csumn_exchange. apply csumn_ext; intros k Hk. rewrite csumn_scal, csumn_RtoC.
    rewrite <- Cmult_assoc, <- RtoC_mult. f_equal. f_equal. rewrite Rmult_comm.
    apply ring_quadrature; auto.
  - exists (fun th => RtoC (2 * PI) * A th)%C. split.
    + intros th _. apply is_CInt_ext with (fun ph => A th + csumn (L - 1) (fun i =>
          gp (S i) th * cexpi (INR (S i) * ph) + gm (S i) th * cexpi (- (INR (S i) * ph))))%C.
      { intros ph. rewrite Hf, seq_csumn. reflexivity. }
      replace (RtoC (2 * PI) * A th)%C with (RtoC (2 * PI - 0) * A th + csumn (L - 1) (fun i => gp (S i) th * RtoC 0 + gm (S i) th * RtoC 0))%C.
      2:{ rewrite csumn_zero by (intros; ring). rewrite Rminus_0_r. ring. }
      apply is_CInt_plus; [apply is_CInt_const|].
      apply (is_CInt_sum (L - 1) (fun i ph => (gp (S i) th * cexpi (INR (S i) * ph) + gm (S i) th * cexpi (- (INR (S i) * ph)))%C)).
      intros i _. apply is_CInt_plus; apply is_CInt_scal; [apply is_CInt_cexpi|apply is_CInt_cexpi_neg]; lia.
    + apply is_CInt_ext with (fun th => csumn L (fun k => a k * RtoC (2 * PI) * RtoC (cos (INR k * th) * sin th))%C).
      { intros th. unfold A. rewrite Ha, <- !csumn_scal. apply csumn_ext; intros. rewrite (RtoC_mult (cos _)). ring. }
      rewrite (csumn_ext L (fun k => a k * RtoC (2 * PI * wcos k))%C (fun k => a k * RtoC (2 * PI) * RtoC (wcos k))%C)
        by (intros; rewrite (RtoC_mult (2 * PI)); ring).
      apply (is_CInt_sum L (fun k th => (a k * RtoC (2 * PI) * RtoC (cos (INR k * th) * sin th))%C)).
      intros k _. apply is_CInt_scal. apply is_CInt_real. apply is_RInt_cos_sin.
Qed.

Lemma weights_positive : forall L Q, (1 <= L)%nat -> mw_map_weights (Z.of_nat L) = Ok Q ->
  length Q = (L * (2 * L - 1))%nat /\ (forall q, In q Q -> 0 < q).
Proof.
  intros L Q HL H. rewrite map_weights_closed in H by auto. injection H as <-. split.
  - rewrite flat_repeat_length, seq_length. reflexivity.
  - intros q Hq. apply in_flat_map in Hq. destruct Hq as [t [_ Hq]]. apply repeat_spec in Hq. subst.
    apply ring_weight_pos; auto.
Qed.

Lemma weights_ok_iff : forall L, (exists Q, mw_map_weights L = Ok Q) <-> (1 <= L)%Z.
Proof.
  intros L. split.
  - intros [Q H]. unfold mw_map_weights, weights_theta in H.
    destruct (Z.ltb_spec (2 * L - 1) 0); [discriminate|lia].
  - intros H. rewrite <- (Z2Nat.id L) by lia. rewrite map_weights_closed by lia. eauto.
Qed.
Lemma weights_error : forall L, (L < 1)%Z -> mw_map_weights L = Raise ValueError.
Proof.
  intros L H. unfold mw_map_weights, weights_theta.
  destruct (Z.ltb_spec (2 * L - 1) 0); [reflexivity|lia].
Qed.

Lemma weights_sum : forall L Q, (1 <= L)%nat -> mw_map_weights (Z.of_nat L) = Ok Q -> rsum Q = 4 * PI.
Proof.
  intros L Q HL H.
  assert (E : rsum Q = rsumn L (fun t => ring_weight L t * cos (INR 0 * mw_theta L t)) * INR (2 * L - 1)).
  { rewrite map_weights_closed in H by auto. injection H as <-.
    rewrite Rmult_comm, <- rsumn_scal. unfold rsumn.
    induction (seq 0 L); simpl; auto. rewrite rsum_app. fold (rsum (map (fun i => INR (2 * L - 1) * (ring_weight L i * cos (0 * mw_theta L i))) l)).
    simpl in IHl. rewrite <- IHl. f_equal. rewrite Rmult_0_l, cos_0, Rmult_1_r.
    clear. generalize (ring_weight L a); intros w. generalize (L + (L + 0) - 1)%nat. induction n; [simpl; ring|]. rewrite S_INR. simpl repeat. simpl rsum. rewrite IHn. ring. }
  rewrite E, ring_quadrature by (auto; lia). unfold wcos; simpl. field.
Qed.

(** ** spherical harmonic expansions are in the class *)
Definition poly_deg (K : nat) (h : R -> R) : Prop :=
  exists c : nat -> R, forall x, h x = rsumn K (fun k => c k * x ^ k).
Lemma rsumn_S' : forall n f, rsumn (S n) f = rsumn n f + f n.
Proof. intros; unfold rsumn. rewrite seq_S, map_app, rsum_app. simpl. ring. Qed.
Lemma poly_deg_mono : forall K K' h, (K <= K')%nat -> poly_deg K h -> poly_deg K' h.
Proof.
  intros K K' h HK [c A]. exists (fun k => if Nat.ltb k K then c k else 0). intros x.
  rewrite A. clear A. induction HK.
  - apply rsumn_ext; intros i Hi. apply Nat.ltb_lt in Hi. rewrite Hi; reflexivity.
  - rewrite rsumn_S', IHHK. destruct (Nat.ltb_spec m K); [lia|]. ring.
Qed.
Lemma poly_deg_comb : forall K a b g h, poly_deg K g -> poly_deg K h -> poly_deg K (fun x => a * g x + b * h x).
Proof.
  intros K a b g h [c A] [d B]. exists (fun k => a * c k + b * d k). intros x.
  rewrite A, B, <- !rsumn_scal, <- rsumn_plus. apply rsumn_ext; intros; ring.
Qed.
Lemma poly_deg_times_x : forall K h, poly_deg K h -> poly_deg (S K) (fun x => x * h x).
Proof.
  intros K h [c A]. exists (fun k => match k with O => 0 | S k' => c k' end). intros x.
  rewrite A, <- rsumn_scal. clear A. induction K.
  - unfold rsumn; simpl; ring.
  - rewrite (rsumn_S' K), IHK, (rsumn_S' (S K)). simpl. ring.
Qed.
Lemma legendre_poly : forall n, poly_deg (S n) (legendre n) /\ poly_deg (S (S n)) (fun x => snd (legendre2 n x)).
Proof.
  induction n.
  - split.
    + exists (fun _ => 1). intros x. unfold legendre, rsumn; simpl; ring.
    + exists (fun k => if Nat.eqb k 1 then 1 else 0). intros x. unfold rsumn; simpl; ring.
  - destruct IHn as [A B]. split.
    + destruct B as [c B]. exists c. intros x. rewrite <- B. unfold legendre. simpl.
      destruct (legendre2 n x); reflexivity.
    + destruct (poly_deg_comb (S (S (S n))) (INR (2 * S n + 1) / INR (S (S n))) (- (INR (S n) / INR (S (S n))))
                  (fun x => x * snd (legendre2 n x)) (legendre n)) as [c Hc].
      * apply poly_deg_times_x; auto.
      * apply poly_deg_mono with (S n); auto.
      * exists c. intros x. rewrite <- Hc. unfold legendre. cbn [legendre2].
        destruct (legendre2 n x) as [p q]. cbn [fst snd]. field. apply not_0_INR; lia.
Qed.

Lemma csumn_pad : forall n l f, (l < n)%nat ->
  csum (map f (seq 1 l)) = csumn (n - 1) (fun i => if Nat.leb (S i) l then f (S i) else RtoC 0).
Proof.
  intros n l f H. rewrite seq_csumn. replace (n - 1)%nat with (l + (n - 1 - l))%nat by lia.
  induction (n - 1 - l)%nat.
  - rewrite Nat.add_0_r. apply csumn_ext; intros i Hi. destruct (Nat.leb_spec (S i) l); [auto|lia].
  - rewrite Nat.add_succ_r, csumn_S, <- IHn0. destruct (Nat.leb_spec (S (l + n0)) l); [lia|ring].
Qed.

Lemma harmonic_band_limited : forall L N Qp Qm a0 ap am,
  band_limited L (harmonic_expansion L N Qp Qm a0 ap am).
Proof.
  intros L N Qp Qm a0 ap am.
  assert (P : exists c : nat -> C, forall x, csumn L (fun l => a0 l * RtoC (N l * legendre l x))%C
            = csumn L (fun k => c k * RtoC (x ^ k))%C).
  { assert (Q : forall n, (n <= L)%nat -> exists c : nat -> C, forall x,
       csumn n (fun l => a0 l * RtoC (N l * legendre l x))%C = csumn L (fun k => c k * RtoC (x ^ k))%C).
    2:{ apply Q; lia. }
    induction n; intros Hn.
    - exists (fun _ => RtoC 0). intros x. symmetry. rewrite csumn_zero; [reflexivity|intros; ring].
    - destruct IHn as [c Hc]; [lia|].
      destruct (poly_deg_mono (S n) L (legendre n) Hn (proj1 (legendre_poly n))) as [d Hd].
      exists (fun k => c k + a0 n * RtoC (N n) * RtoC (d k))%C. intros x.
      rewrite csumn_S, Hc, RtoC_mult, Hd.
      rewrite (csumn_ext L (fun k => (c k + a0 n * RtoC (N n) * RtoC (d k)) * RtoC (x ^ k))%C
        (fun k => c k * RtoC (x ^ k) + a0 n * RtoC (N n) * RtoC (d k * x ^ k))%C)
        by (intros; rewrite RtoC_mult; ring).
      rewrite csumn_plus, csumn_scal, csumn_RtoC. ring. }
  destruct P as [c Hc].
  exists c, (fun m th => csumn L (fun l => if Nat.leb m l then ap l m * Qp l m th else RtoC 0)%C),
         (fun m th => csumn L (fun l => if Nat.leb m l then am l m * Qm l m th else RtoC 0)%C).
  intros th ph. unfold harmonic_expansion.
  change (csumn L (fun l => a0 l * RtoC (N l * legendre l (cos th)) +
    csum (map (fun m => ap l m * (Qp l m th * cexpi (INR m * ph))
                      + am l m * (Qm l m th * cexpi (- (INR m * ph)))) (seq 1 l)))%C =
    (csumn L (fun k => c k * RtoC (cos th ^ k)) + csum (map (fun m =>
       csumn L (fun l => if Nat.leb m l then ap l m * Qp l m th else RtoC 0) * cexpi (INR m * ph) +
       csumn L (fun l => if Nat.leb m l then am l m * Qm l m th else RtoC 0) * cexpi (- (INR m * ph))) (seq 1 (L - 1))))%C).
  rewrite csumn_plus, Hc. f_equal.
  rewrite (csumn_ext L _ (fun l => csumn (L - 1) (fun i => if Nat.leb (S i) l then
      (ap l (S i) * (Qp l (S i) th * cexpi (INR (S i) * ph)) + am l (S i) * (Qm l (S i) th * cexpi (- (INR (S i) * ph)))) else RtoC 0)%C))
    by (intros l Hl; rewrite (csumn_pad L) by auto; reflexivity).
  rewrite csumn_exchange, seq_csumn. apply csumn_ext; intros i Hi.
  rewrite (Cmult_comm (csumn L _) (cexpi (INR (S i) * ph))), (Cmult_comm (csumn L _) (cexpi (- _))).
  rewrite <- !csumn_scal, <- csumn_plus. apply csumn_ext; intros l Hl.
  destruct (Nat.leb (S i) l); ring.
Qed.
