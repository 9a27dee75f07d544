(** Proofs about forward.py, logpi and the start point. *)
From Coq Require Import List ZArith Lia Bool Reals Lra Psatz String.
From Coquelicot Require Import Coquelicot.
From Verif Require Import PyBase PyBaseFacts CVec RSort Thresh ThreshSpec ThreshProof Utils UtilsSpec
  OpSpec Prior PriorSpec PriorProof Forward Sampler Mcmc McmcSpec.
Import ListNotations.
Open Scope R_scope.
Notation length := List.length.

Lemma np_sub_same : forall x y, length x = length y -> np_sub x y = Ok (vsub x y).
Proof. intros; apply np_bin_same; auto. Qed.
Lemma np_add_same : forall x y, length x = length y -> np_add x y = Ok (vadd x y).
Proof. intros; apply np_bin_same; auto. Qed.
Lemma np_dot_ok : forall A x, length x = m_cols A -> np_dot A x = Ok (matvec A x).
Proof. intros A x H. unfold np_dot. rewrite H, Nat.eqb_refl. reflexivity. Qed.

(** ** quadratic forms *)

Lemma cdot_matvec_quadform : forall W d, m_rows W = length d -> m_cols W = length d ->
  cdot d (matvec W d) = quadform W d.
Proof.
  intros W d Hr Hc. rewrite cdot_as_sum by (rewrite matvec_length; auto). unfold quadform.
  apply csum_map_ext. intros i Hi. apply in_seq in Hi.
  rewrite nth_matvec by lia. rewrite <- csum_map_scal. rewrite Hc. apply csum_map_ext. intros j Hj. ring.
Qed.
Lemma matvec_ext : forall A B x, m_rows A = m_rows B -> m_cols A = m_cols B ->
  (forall i j, (i < m_rows A)%nat -> (j < m_cols A)%nat -> m_ent A i j = m_ent B i j) -> matvec A x = matvec B x.
Proof.
  intros A B x R E H. unfold matvec. rewrite <- R, <- E. apply map_ext_in. intros i Hi. apply in_seq in Hi.
  apply csum_map_ext. intros j Hj. apply in_seq in Hj. rewrite H by lia. reflexivity.
Qed.
Lemma hermitian_getH : forall W n x, hermitian W n -> matvec (getH W) x = matvec W x.
Proof.
  intros W n x (R & E & H). apply matvec_ext; simpl; try congruence. rewrite R, E. intros i j Hi Hj. symmetry. auto.
Qed.
Lemma hermitian_sym : forall W n x y, hermitian W n -> length x = n -> length y = n ->
  cdot x (matvec W y) = cdot (matvec W x) y.
Proof.
  intros W n x y H Hx Hy. rewrite <- (hermitian_getH W n x H). destruct H as (R & E & H).
  apply matvec_adjoint; congruence.
Qed.
Lemma quadform_real : forall W d, hermitian W (length d) -> Im (quadform W d) = 0.
Proof.
  intros W d H. destruct H as (R & E & H'). assert (H : hermitian W (length d)) by (repeat split; auto).
  rewrite <- cdot_matvec_quadform by auto.
  assert (F : Cconj (cdot d (matvec W d)) = cdot d (matvec W d)).
  { rewrite cdot_conj. symmetry. apply (hermitian_sym W (length d)); auto. }
  destruct (cdot d (matvec W d)) as [a b]. unfold Cconj in F. simpl in *. injection F. lra.
Qed.
Lemma quadform_diagonal : forall W w d, is_diagonal W w -> length w = length d ->
  quadform W d = csum (map2 (fun a z => a * RtoC (Cmod z ^ 2))%C w d).
Proof.
  intros W w d (R & E & H) L. rewrite <- cdot_matvec_quadform by congruence.
  rewrite (matvec_ext W (diags w)) by (simpl; auto; intros; apply H; congruence).
  rewrite matvec_diags by auto. unfold cdot. rewrite map2_flip. f_equal.
  clear - L. revert d L; induction w as [|a w IH]; intros [|z d] L; cbn [map2 List.length] in *; try lia; auto.
  f_equal; [|apply IH; lia]. rewrite <- Cconj_mult_self. ring.
Qed.
Lemma diags_diagonal : forall d, is_diagonal (diags d) d.
Proof. intros d. split; [reflexivity|split; [reflexivity|]]. intros; reflexivity. Qed.
Lemma scaled_identity_diagonal : forall n c, is_diagonal (scaled_identity n c) (repeat c n).
Proof.
  intros n c. unfold is_diagonal. rewrite repeat_length. split; [reflexivity|split; [reflexivity|]]. intros i j Hi Hj. simpl.
  destruct (Nat.eqb i j); auto. symmetry. clear - Hi. revert i Hi; induction n; intros [|i] H; simpl in *; try lia; auto.
  apply IHn; lia.
Qed.
Lemma diagonal_hermitian : forall W w, is_diagonal W w -> (forall z, In z w -> Im z = 0) -> hermitian W (length w).
Proof.
  intros W w (R & E & H) Z. split; [auto|split; [auto|]]. intros i j Hi Hj. rewrite !H by auto.
  destruct (Nat.eqb_spec i j).
  - subst. rewrite Nat.eqb_refl. specialize (Z (nth j w (RtoC 0)) (nth_In _ _ Hj)).
    destruct (nth j w (RtoC 0)) as [a b]. simpl in Z. subst. unfold Cconj; simpl; f_equal; lra.
  - rewrite (proj2 (Nat.eqb_neq j i)) by lia. cplx.
Qed.

(** ** logpi *)
Section LP.
Context (f : forward_op) (pr : prior_obj) (q : numparams).
Lemma logpi_value : forall X preds n, length (d_val (fo_data f)) = n -> length preds = n ->
  m_rows (fo_invcov f) = n -> m_cols (fo_invcov f) = n ->
  logpi f pr q X preds =
  let* p := pr_prior pr X in
  let L2 := quadform (fo_invcov f) (vsub (d_val (fo_data f)) preds) in
  Ok ((- (RtoC (n_mu q) * RtoC p) - L2)%C, L2, RtoC p).
Proof.
  intros X preds n Hd Hp Hr Hc. unfold logpi. rewrite np_sub_same by congruence. cbn [rbind].
  assert (L : length (vsub (d_val (fo_data f)) preds) = n) by (rewrite vsub_length; congruence).
  rewrite np_dot_ok by congruence. cbn [rbind]. unfold np_vdot. rewrite matvec_length, L, Hr, Nat.eqb_refl. cbn [rbind].
  rewrite cdot_matvec_quadform by congruence.
  destruct (pr_prior pr X) as [p|e]; cbn [rbind]; [|reflexivity]. cbv zeta. f_equal. f_equal. f_equal.
  f_equal. cplx.
Qed.
End LP.

(** ** covariance *)

(** [sd] stands for the real nonzero standard deviations [s] of n data *)
Definition real_errors (sd : sigd) (n : nat) (s : list R) : Prop :=
  length s = n /\ (forall a, In a s -> a <> 0) /\
  ((exists t, t <> 0 /\ sd = SPy (RtoC t) false /\ s = repeat t n) \/ sd = SVec (map RtoC s) false).

Lemma sqrt2_pos : 0 < sqrt 2. Proof. apply sqrt_lt_R0; lra. Qed.
Lemma variance_real : forall (s : R), variance false (RtoC s) false = RtoC (s ^ 2).
Proof. intros; unfold variance; cbn [andb]. cplx. Qed.
Lemma inv_real : forall s : R, s <> 0 -> (RtoC 1 / RtoC (s ^ 2))%C = RtoC (1 / s ^ 2).
Proof. intros s H. unfold Rdiv. rewrite RtoC_mult, RtoC_inv; [reflexivity|apply pow_nonzero; auto]. Qed.
Lemma variance_complex : forall (s : R), s <> 0 ->
  (RtoC 1 / variance true (RtoC s) false)%C = (RtoC (1 / s ^ 2) * ((RtoC 1 - Ci) / RtoC (sqrt 2)))%C.
Proof.
  intros s H. unfold variance; cbn [andb negb]. assert (P := sqrt2_pos).
  assert (S2 : sqrt 2 * sqrt 2 = 2) by (apply sqrt_sqrt; lra).
  assert (NZ : forall r : R, r <> 0 -> RtoC r <> RtoC 0) by (intros r Hr E; apply RtoC_inj in E; auto).
  assert (N1 : (RtoC 1 + Ci)%C <> RtoC 0).
  { unfold Ci, RtoC, Cplus; simpl; intros E; injection E; intros; lra. }
  assert (N2 : (RtoC 1 - Ci)%C <> RtoC 0).
  { unfold Ci, RtoC, Cminus, Copp, Cplus; simpl; intros E; injection E; intros; lra. }
  replace (RtoC (1 / s ^ 2)) with (RtoC 1 / (RtoC s * RtoC s))%C.
  2:{ rewrite <- inv_real by auto. f_equal. f_equal. cplx. }
  assert (I : ((RtoC 1 - Ci) * (RtoC 1 + Ci))%C = (RtoC (sqrt 2) * RtoC (sqrt 2))%C).
  { rewrite <- RtoC_mult, S2. unfold Ci. cplx. }
  assert (Q : (RtoC 1 / (RtoC 1 + Ci))%C = ((RtoC 1 - Ci) / (RtoC (sqrt 2) * RtoC (sqrt 2)))%C).
  { rewrite <- I. field. split; auto. }
  replace (RtoC 1 / (RtoC s * RtoC s / RtoC (sqrt 2) * (RtoC 1 + Ci)))%C
    with (RtoC 1 / (RtoC s * RtoC s) * RtoC (sqrt 2) * (RtoC 1 / (RtoC 1 + Ci)))%C.
  - rewrite Q. field. split; apply NZ; lra.
  - field. repeat split; auto; apply NZ; lra.
Qed.

(** ** gradient of the data fidelity *)

(** the operators of [f] are linear with correct adjoints; p parameters, m data *)
Definition linear_model (f : forward_op) (p m : nat) : Prop :=
  (fo_setting f = "analysis"%string /\
   exists ms, fo_measurement f = Some ms /\ adjoint_pair (ms_forward ms) (ms_adjoint ms) p m) \/
  (fo_setting f = "synthesis"%string /\
   exists ms t n, fo_measurement f = Some ms /\ fo_transform f = Some t /\
     adjoint_pair (t_inverse t) (t_inverse_adjoint t) p n /\ adjoint_pair (ms_forward ms) (ms_adjoint ms) n m).

Lemma linear_model_ops : forall f p m, linear_model f p m -> exists A, adjoint_pair (fo_forward f) A p m /\
  forall preds, fo_gradg f preds = let* r := np_sub preds (d_val (fo_data f)) in let* w := np_dot (fo_invcov f) r in A w.
Proof.
  intros f p m [(S & ms & EM & H) | (S & ms & t & n & EM & ET & H1 & H2)].
  - exists (ms_adjoint ms). unfold fo_forward, fo_gradg, gradg_analysis. rewrite S, EM. cbn. split.
    + destruct H as (A & B & D). repeat split; auto.
    + intros; reflexivity.
  - exists (fun w => let* y := ms_adjoint ms w in t_inverse_adjoint t y). split.
    + unfold fo_forward. rewrite S, EM, ET. cbn. exact (adjoint_compose _ _ _ _ _ _ _ H1 H2).
    + intros preds. unfold fo_gradg, gradg_analysis. rewrite S, EM, ET. cbn.
      destruct (np_sub preds (d_val (fo_data f))) as [r|]; cbn; [|reflexivity].
      destruct (np_dot (fo_invcov f) r) as [w|]; cbn; reflexivity.
Qed.

Lemma quadform_expand : forall W n a b, hermitian W n -> length a = n -> length b = n ->
  quadform W (vsub a b) = (quadform W a - RtoC (2 * Re (cdot (matvec W a) b)) + quadform W b)%C.
Proof.
  intros W n a b H Ha Hb. assert (H' := H). destruct H' as (R & E & _).
  assert (Lab : length (vsub a b) = n) by (rewrite vsub_length; congruence).
  rewrite <- !cdot_matvec_quadform by congruence.
  assert (M : matvec W (vsub a b) = vsub (matvec W a) (matvec W b)).
  { assert (Q := linear_sub (np_dot W) n a b (matvec W a) (matvec W b)).
    assert (Ok (matvec W (vsub a b)) = Ok (vsub (matvec W a) (matvec W b))); [|congruence].
    rewrite <- np_dot_ok by congruence. apply Q; try (apply np_dot_ok; congruence); auto.
    rewrite <- E. eapply adjoint_linear. apply np_dot_adjoint. }
  rewrite M. assert (La := matvec_length W a). assert (Lb := matvec_length W b).
  rewrite cdot_vsub_l by (rewrite ?vsub_length; congruence). rewrite !cdot_vsub_r by congruence.
  rewrite (hermitian_sym W n a b H Ha Hb).
  replace (cdot b (matvec W a)) with (Cconj (cdot (matvec W a) b)) by (rewrite cdot_conj; reflexivity).
  destruct (cdot (matvec W a) b) as [x y]. destruct (cdot a (matvec W a)), (cdot b (matvec W b)). cplx.
Qed.

Lemma vsub_vadd_assoc : forall d a b, length d = length a -> length a = length b -> vsub d (vadd a b) = vsub (vsub d a) b.
Proof.
  induction d as [|x d IH]; intros [|y a] [|z b]; simpl; intros; try lia; auto.
  unfold vsub, vadd in *. simpl. f_equal; [ring|apply IH; lia].
Qed.
Lemma matvec_vsub_flip : forall W n d a, m_cols W = n -> length d = n -> length a = n ->
  matvec W (vsub a d) = vopp (matvec W (vsub d a)).
Proof.
  intros W n d a E Hd Ha. apply nth_ext with (d := RtoC 0) (d' := RtoC 0).
  - unfold vopp. rewrite map_length, !matvec_length. reflexivity.
  - intros i Hi. rewrite matvec_length in Hi. unfold vopp.
    rewrite (nth_map_in _ _ _ _ (RtoC 0)) by (rewrite matvec_length; auto). rewrite !nth_matvec by auto.
    rewrite <- csum_map_opp. apply csum_map_ext. intros j Hj. apply in_seq in Hj. unfold vsub.
    rewrite !(nth_map2 _ _ _ _ (RtoC 0) (RtoC 0)) by lia. ring.
Qed.
Lemma Re_cdot_vopp_l : forall a b, Re (cdot (vopp a) b) = - Re (cdot a b).
Proof.
  intros a b. assert (E : vopp a = vscal (RtoC (-1)) a).
  { unfold vopp, vscal. apply map_ext. intros; cplx. }
  rewrite E, cdot_vscal_l. rewrite Cconj_R, Re_scal. ring.
Qed.

Lemma gradg_expansion : forall f p m X h, linear_model f p m -> hermitian (fo_invcov f) m ->
  length (d_val (fo_data f)) = m -> length X = p -> length h = p ->
  exists fx fh fxh g, fo_forward f X = Ok fx /\ fo_forward f h = Ok fh /\ fo_forward f (vadd X h) = Ok fxh /\
    length fx = m /\ length fh = m /\ length fxh = m /\
    fo_gradg f fx = Ok g /\ length g = p /\
    quadform (fo_invcov f) (vsub (d_val (fo_data f)) fxh) =
    (quadform (fo_invcov f) (vsub (d_val (fo_data f)) fx) + RtoC (2 * Re (cdot g h)) + quadform (fo_invcov f) fh)%C.
Proof.
  intros f p m X h LM HW Hd HX Hh. destruct (linear_model_ops f p m LM) as (A & AP & EG).
  assert (LF := adjoint_linear _ _ _ _ AP). destruct AP as (MF & MA & AD).
  destruct (MF X HX) as (fx & Efx & Lfx). destruct (MF h Hh) as (fh & Efh & Lfh).
  assert (HW' := HW). destruct HW' as (R & E & _).
  assert (Lr : length (vsub fx (d_val (fo_data f))) = m) by (rewrite vsub_length; congruence).
  destruct (MA (matvec (fo_invcov f) (vsub fx (d_val (fo_data f)))) ltac:(rewrite matvec_length; congruence)) as (g & Eg & Lg).
  exists fx, fh, (vadd fx fh), g.
  split; [auto|]. split; [auto|]. split; [apply (linear_add _ p); auto|]. split; [auto|]. split; [auto|].
  split; [rewrite vadd_length; congruence|].
  split; [rewrite EG, np_sub_same by congruence; cbn [rbind]; rewrite np_dot_ok by congruence; exact Eg|]. split; [auto|].
  rewrite vsub_vadd_assoc by congruence.
  assert (L1 : length (vsub (d_val (fo_data f)) fx) = m) by (rewrite vsub_length; congruence).
  rewrite (quadform_expand _ m) by auto.
  assert (LM2 : length (matvec (fo_invcov f) (vsub fx (d_val (fo_data f)))) = m) by (rewrite matvec_length; exact R).
  assert (Q := AD h _ fh g Hh LM2 Efh Eg). rewrite <- Q.
  rewrite (matvec_vsub_flip _ m) by auto. rewrite Re_cdot_vopp_l.
  set (r := Re _). set (u := quadform _ _). set (v := quadform _ fh). clearbody r u v. destruct u, v; cplx.
Qed.

(** ** chi-squared *)
Lemma Rdiv_nonneg : forall a b, 0 <= a -> 0 <= b -> 0 <= a / b.
Proof. exact INR_nonneg_div. Qed.
Lemma chi2_quadform : forall W s d, is_diagonal W (map (fun a => RtoC (1 / a ^ 2)) s) -> length s = length d ->
  quadform W d = RtoC (chi2 s d).
Proof.
  intros W s d H L. rewrite (quadform_diagonal W _ d H) by (rewrite map_length; auto). unfold chi2.
  rewrite <- csum_RtoC, map2_map_l, map_map2. f_equal. apply map2_ext. intros a b. rewrite <- RtoC_mult. f_equal.
  unfold Rdiv. ring.
Qed.
Lemma chi2_nonneg : forall s d, 0 <= chi2 s d.
Proof.
  induction s as [|a s IH]; intros [|z d]; try (unfold chi2; simpl; lra).
  change (chi2 (a :: s) (z :: d)) with (Cmod z ^ 2 / a ^ 2 + chi2 s d). specialize (IH d).
  assert (0 <= Cmod z ^ 2 / a ^ 2) by (apply Rdiv_nonneg; apply pow2_ge_0). lra.
Qed.
Lemma chi2_zero : forall s d, length s = length d -> (forall a, In a s -> a <> 0) ->
  (chi2 s d = 0 <-> forall z, In z d -> z = RtoC 0).
Proof.
  induction s as [|a s IH]; intros [|z d] L N; cbn [List.length] in *; try lia.
  - unfold chi2; simpl. split; auto; intros; contradiction.
  - change (chi2 (a :: s) (z :: d)) with (Cmod z ^ 2 / a ^ 2 + chi2 s d).
    assert (P := chi2_nonneg s d). assert (a <> 0) by (apply N; left; auto).
    assert (A : 0 < a ^ 2) by (destruct (Rle_lt_or_eq_dec 0 (a^2) (pow2_ge_0 a)); auto; exfalso; apply (pow_nonzero a 2); auto).
    assert (Q : 0 <= Cmod z ^ 2 / a ^ 2) by (apply Rdiv_nonneg; [apply pow2_ge_0|lra]).
    split.
    + intros E y [<-|Hy].
      * assert (Cmod z ^ 2 / a ^ 2 = 0) by lra. assert (Cmod z ^ 2 = 0) by (apply (Rmult_eq_reg_r (/ a ^ 2)); [unfold Rdiv in *; lra|apply Rinv_neq_0_compat; lra]).
        apply Cmod_eq_0. destruct (Req_dec (Cmod z) 0); auto. exfalso. apply (pow_nonzero (Cmod z) 2); auto.
      * apply (IH d ltac:(lia) ltac:(intros; apply N; right; auto)); auto. lra.
    + intros Z. rewrite (Z z) by (left; auto). rewrite Cmod_0.
      rewrite (proj2 (IH d ltac:(lia) ltac:(intros; apply N; right; auto))) by (intros; apply Z; right; auto).
      unfold Rdiv. ring.
Qed.
Lemma vsub_zero_iff : forall a b, length a = length b -> ((forall z, In z (vsub a b) -> z = RtoC 0) <-> a = b).
Proof.
  unfold vsub. induction a as [|x a IH]; intros [|y b] L; cbn [List.length map2] in *; try lia.
  - split; auto; intros; contradiction.
  - split.
    + intros H. f_equal; [|apply IH; [lia|intros; apply H; right; auto]].
      assert (E := H _ (or_introl eq_refl)). replace x with (x - y + y)%C by ring. rewrite E. ring.
    + intros E z. injection E as -> ->. intros [<-|Hz]; [ring|]. apply (proj2 (IH b ltac:(lia)) eq_refl); auto.
Qed.

(** ** construction *)
Lemma Forward_init_ok : forall inv d s set tr ms np f, Forward_init inv d s set tr ms np = Ok f ->
  build_invcov inv d s = Ok (fo_invcov f) /\ known_setting set = true /\
  f = mkFwd d (fo_invcov f) set tr ms np.
Proof.
  intros inv d s set tr ms np f. unfold Forward_init. destruct (build_invcov inv d s) as [ic|]; cbn [rbind]; [|discriminate].
  destruct (known_setting set); [|discriminate]. intros E; injection E as <-. auto.
Qed.
Lemma map_repeat : forall {A B} (g : A -> B) a n, map g (repeat a n) = repeat (g a) n.
Proof. induction n; simpl; congruence. Qed.
Lemma real_errors_invcov : forall inv d sd s, d_complex d = false -> real_errors sd (length (d_val d)) s ->
  exists W, build_invcov inv d sd = Ok W /\ is_diagonal W (map (fun a => RtoC (1 / a ^ 2)) s).
Proof.
  intros inv d sd s DC (L & N & [(t & Ht & -> & Es) | ->]).
  - unfold build_invcov. rewrite DC, variance_real. cbn [andb negb]. destruct (Reqb_spec (Cmod (RtoC (t ^ 2))) 0) as [Z|Z].
    + exfalso. apply Cmod_eq_0, RtoC_inj in Z. apply (pow_nonzero t 2); auto.
    + eexists; split; [reflexivity|]. rewrite inv_real by auto. rewrite Es, map_repeat. apply scaled_identity_diagonal.
  - unfold build_invcov. rewrite !map_length, L, Nat.eqb_refl. eexists; split; [reflexivity|].
    rewrite DC, !map_map. erewrite (map_ext_in _ (fun a => RtoC (1 / a ^ 2))); [apply diags_diagonal|].
    intros a Ha. cbv beta. rewrite variance_real. apply inv_real; auto.
Qed.
Lemma complex_errors_invcov : forall inv d sd s, d_complex d = true -> real_errors sd (length (d_val d)) s ->
  exists W, build_invcov inv d sd = Ok W /\
    is_diagonal W (map (fun a => RtoC (1 / a ^ 2) * ((RtoC 1 - Ci) / RtoC (sqrt 2)))%C s).
Proof.
  intros inv d sd s DC (L & N & [(t & Ht & -> & Es) | ->]).
  - unfold build_invcov. rewrite DC. cbn [andb negb].
    eexists; split; [reflexivity|]. rewrite variance_complex by auto. rewrite Es, map_repeat. apply scaled_identity_diagonal.
  - unfold build_invcov. rewrite !map_length, L, Nat.eqb_refl. eexists; split; [reflexivity|].
    rewrite DC, !map_map. erewrite (map_ext_in _ (fun a => RtoC (1 / a ^ 2) * ((RtoC 1 - Ci) / RtoC (sqrt 2)))%C); [apply diags_diagonal|].
    intros a Ha. cbv beta. apply variance_complex; auto.
Qed.

(** identity operators, one datum 1 with error 1 *)
Definition id_meas : measurement := mkMeas (fun x => Ok x) (fun x => Ok x).
Definition unit_fwd (data : C) : forward_op :=
  mkFwd (mkData [data] false) (scaled_identity 1 (RtoC 1)) "analysis" None (Some id_meas) (Some 1%nat).

