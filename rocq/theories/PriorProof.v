(** Proofs about the priors. *)
From Coq Require Import List ZArith Lia Bool Reals Lra Psatz String Classical.
From Coquelicot Require Import Coquelicot.
From Verif Require Import PyBase PyBaseFacts CVec RSort Thresh ThreshSpec ThreshProof Quad QuadSpec QuadProof QuadMain
  Utils UtilsSpec UtilsProof OpSpec Prior PriorSpec.
Import ListNotations.
Open Scope R_scope.

(** ** norms *)
Lemma L1_prior_l1norm : forall X, L1_prior X = l1norm X.
Proof. reflexivity. Qed.
Lemma l1norm_zero_iff : forall x, l1norm x = 0 <-> (forall z, In z x -> z = RtoC 0).
Proof.
  intros x. unfold l1norm. split.
  - intros H z Hz. apply Cmod_eq_0. apply (rsum_zero_all (map Cmod x)); auto.
    + intros a Ha. apply in_map_iff in Ha. destruct Ha as [w [<- _]]. apply Cmod_ge_0.
    + apply in_map; auto.
  - intros H. transitivity (rsum (map (fun _ => 0) x)).
    + apply rsum_map_ext. intros z Hz. rewrite (H z Hz), Cmod_0. reflexivity.
    + rewrite rsum_const. ring.
Qed.
Lemma l1norm_vscal : forall c x, l1norm (vscal c x) = Cmod c * l1norm x.
Proof.
  intros c x. unfold l1norm, vscal. rewrite map_map, <- rsum_map_scal. apply rsum_map_ext.
  intros z _. apply Cmod_mult.
Qed.
Lemma l1norm_triangle : forall x y, l1norm (vadd x y) <= l1norm x + l1norm y.
Proof.
  unfold l1norm, vadd. induction x; destruct y; simpl; try lra.
  - assert (0 <= rsum (map Cmod y)) by (apply l1norm_nonneg). assert (0 <= Cmod c) by apply Cmod_ge_0. lra.
  - assert (0 <= rsum (map Cmod x)) by (apply l1norm_nonneg). assert (0 <= Cmod a) by apply Cmod_ge_0. lra.
  - specialize (IHx y). assert (T := Cmod_triangle a c). lra.
Qed.
Lemma wl1_repeat : forall t u, wl1 (repeat t (List.length u)) u = t * l1norm u.
Proof.
  intros t u. unfold wl1, l1norm. induction u; simpl; [ring|]. rewrite IHu. ring.
Qed.
Lemma wl1_scal : forall t w u, wl1 (map (Rmult t) w) u = t * wl1 w u.
Proof. intros t. unfold wl1. induction w; destruct u; simpl; try ring. rewrite IHw. ring. Qed.

(** |u - x|^2 = |u - p|^2 + |p - x|^2 + 2 Re <u - p, p - x> *)
Lemma nrm2_three : forall u p x, List.length u = List.length p -> List.length p = List.length x ->
  nrm2 (vsub u x) = nrm2 (vsub u p) + nrm2 (vsub p x) + 2 * Re (cdot (vsub u p) (vsub p x)).
Proof.
  induction u as [|a u IH]; destruct p as [|b p], x as [|c x]; intros H1 H2; try discriminate.
  - unfold nrm2; simpl. ring.
  - change (vsub (a :: u) (c :: x)) with ((a - c)%C :: vsub u x).
    change (vsub (a :: u) (b :: p)) with ((a - b)%C :: vsub u p).
    change (vsub (b :: p) (c :: x)) with ((b - c)%C :: vsub p x).
    rewrite !nrm2_cons, (IH p x) by (simpl in *; lia).
    change (cdot ((a - b)%C :: vsub u p) ((b - c)%C :: vsub p x))
      with ((Cconj (a - b) * (b - c) + cdot (vsub u p) (vsub p x))%C).
    rewrite Re_plus, !Cmod_sq. destruct a, b, c. unfold Re. simpl. ring.
Qed.

(** variational inequality of soft thresholding *)
Lemma soft_variational : forall Tl a v, List.length a = List.length Tl -> List.length v = List.length Tl ->
  (forall t, In t Tl -> 0 <= t) ->
  Re (cdot (vsub v (map2 soft1 a Tl)) (vsub a (map2 soft1 a Tl))) <= wl1 Tl v - wl1 Tl (map2 soft1 a Tl).
Proof.
  induction Tl as [|t Tl IH]; destruct a as [|z a], v as [|w v]; intros H1 H2 N; try discriminate.
  - unfold wl1; simpl. lra.
  - assert (A := soft1_variational z t w ltac:(apply N; left; auto)).
    assert (B := IH a v ltac:(simpl in *; lia) ltac:(simpl in *; lia) ltac:(intros; apply N; right; auto)).
    change (map2 soft1 (z :: a) (t :: Tl)) with (soft1 z t :: map2 soft1 a Tl). set (s := map2 soft1 a Tl) in *.
    change (cdot (vsub (w :: v) (soft1 z t :: s)) (vsub (z :: a) (soft1 z t :: s)))
      with ((Cconj (w - soft1 z t) * (z - soft1 z t) + cdot (vsub v s) (vsub a s))%C).
    rewrite Re_plus.
    change (wl1 (t :: Tl) (w :: v)) with (t * Cmod w + wl1 Tl v).
    change (wl1 (t :: Tl) (soft1 z t :: s)) with (t * Cmod (soft1 z t) + wl1 Tl s). lra.
Qed.

(** ** analysis prox *)
Lemma vsub_vadd_cancel : forall x d, List.length x = List.length d -> vsub (vadd x d) x = d.
Proof.
  induction x; destruct d; intros H; try discriminate; auto. unfold vadd, vsub in *. simpl.
  f_equal; [ring|]. apply IHx. simpl in H; lia.
Qed.
Lemma vadd_vsub_cancel : forall a s, List.length a = List.length s -> vadd a (vsub s a) = s.
Proof.
  induction a; destruct s; intros H; try discriminate; auto. unfold vadd, vsub in *. simpl.
  f_equal; [ring|]. apply IHa. simpl in H; lia.
Qed.
Lemma vsub_opp : forall a s, List.length a = List.length s -> vsub s a = vscal (RtoC (-1)) (vsub a s).
Proof.
  induction a; destruct s; intros H; try discriminate; auto. unfold vscal, vsub in *. simpl.
  f_equal; [cplx|]. apply IHa. simpl in H; lia.
Qed.

Lemma analysis_prox : forall p n m X Tl, p_setting p = "analysis"%string ->
  adjoint_pair (p_adj p) (p_fwd p) n m -> left_inverse (p_adj p) (p_fwd p) m ->
  List.length X = n -> thresholds (p_T p) m Tl -> (forall t, In t Tl -> 0 <= t) ->
  exists s, proxf p X = Ok s /\
    forall g, (forall u au, List.length u = n -> p_adj p u = Ok au -> g u = wl1 Tl au) -> is_prox g X s.
Proof.
  intros p n m X Tl HS AP LI HX HT HN.
  assert (LA := adjoint_linear _ _ _ _ AP). destruct AP as [A [F AD]].
  destruct (A X HX) as [a [Ea La]]. assert (LT : List.length Tl = m) by apply HT.
  assert (HT' : thresholds (p_T p) (List.length a) Tl) by (rewrite La; exact HT).
  set (s := map2 soft1 a Tl).
  assert (Ls : List.length s = m) by (unfold s; rewrite map2_length; congruence).
  set (d := vsub s a). assert (Ld : List.length d = m) by (unfold d; rewrite vsub_length; congruence).
  destruct (F d Ld) as [f [Ef Lf]].
  exists (vadd X f). unfold proxf. rewrite HS. simpl String.eqb. cbv iota. unfold proxf_analysis.
  rewrite Ea. cbn [rbind]. rewrite (soft_thresholds _ _ _ HT'). cbn [rbind]. fold s.
  unfold np_sub. rewrite np_bin_same by congruence. cbn [rbind]. change (map2 Cminus s a) with d. rewrite Ef. cbn [rbind].
  unfold np_add. rewrite np_bin_same by congruence. split; [reflexivity|]. change (map2 Cplus X f) with (vadd X f).
  set (q := vadd X f). assert (Lq : List.length q = n) by (unfold q; rewrite vadd_length; congruence).
  assert (Eq : p_adj p q = Ok s).
  { unfold q. rewrite (linear_add _ n X f a d LA HX ltac:(congruence) Ea (LI d f Ld Ef)).
    f_equal. unfold d. apply vadd_vsub_cancel. congruence. }
  intros g Hg. split; [congruence|]. intros u Hu. rewrite HX in Hu.
  destruct (A u Hu) as [v [Ev Lv]]. unfold prox_objective.
  rewrite (Hg u v Hu Ev), (Hg q s Lq Eq).
  rewrite (nrm2_three u q X) by congruence.
  assert (Ed : vsub q X = f) by (unfold q; apply vsub_vadd_cancel; congruence). rewrite Ed.
  assert (EI : cdot (vsub u q) f = cdot (vsub v s) d).
  { rewrite <- (cdot_conj f (vsub u q)). rewrite <- (AD (vsub u q) d (vsub v s) f); auto.
    - apply cdot_conj.
    - rewrite vsub_length; congruence.
    - apply (linear_sub _ n); auto. }
  rewrite EI. unfold d. rewrite (vsub_opp a s) by congruence. rewrite cdot_vscal_r.
  assert (V := soft_variational Tl a v ltac:(congruence) ltac:(congruence) HN). fold s in V.
  rewrite (Re_scal (-1)). lra.
Qed.

(** ** quadrature weights *)
Lemma quad_weights_ok : forall bls w, quad_weights bls = Ok w -> (forall b, In b bls -> (1 <= b)%nat) ->
  (forall q, In q w -> 0 < q).
Proof.
  intros bls w H B q Hq. unfold quad_weights in H.
  destruct (rseq (map (fun el => mw_map_weights (Z.of_nat el)) bls)) as [ws|] eqn:E; [|discriminate]. simpl in H.
  assert (W : w = List.concat ws) by (destruct ws; [discriminate|congruence]). subst w. clear H.
  apply in_concat in Hq. destruct Hq as [l [Hl Hq]]. apply rseq_ok in E.
  assert (I : In (Ok l) (map (fun el => mw_map_weights (Z.of_nat el)) bls)) by (rewrite E; apply in_map; auto).
  apply in_map_iff in I. destruct I as [el [El Hel]]. apply (weights_positive el l (B el Hel) El). auto.
Qed.
Lemma bandlimits_pos : forall L t l, multires_bandlimits L t = Ok l -> forall b, In b l -> (1 <= b)%nat.
Proof.
  intros L t l H b Hb. destruct l as [|c cs]; [contradiction|]. apply multires_ok in H. destruct H as [_ [_ [C F]]].
  destruct Hb as [<-|Hb]; [apply C|]. clear -F Hb. induction F; [contradiction|]. destruct Hb as [<-|Hb]; auto. apply H.
Qed.

Lemma S2_init_inv : forall setting fwd adj T L til p, S2_init setting fwd adj T L til = Ok p ->
  setting = "synthesis"%string /\ p_setting (s_l1 p) = "synthesis"%string /\
  thr_imul T (s_weights p) = Ok (p_T (s_l1 p)) /\
  (exists bls, multires_bandlimits L til = Ok bls /\ quad_weights bls = Ok (s_weights p)) /\
  (forall q, In q (s_weights p) -> 0 < q).
Proof.
  intros setting fwd adj T L til p H. unfold S2_init, L1_init in H. destruct (known_setting setting) eqn:K; [|discriminate].
  cbn [rbind p_T] in H. destruct (String.eqb_spec setting "synthesis"); [|discriminate].
  destruct (multires_bandlimits L til) as [bls|] eqn:EB; [|discriminate]. cbn [rbind] in H.
  destruct (quad_weights bls) as [w|] eqn:EW; [|discriminate]. cbn [rbind] in H.
  destruct (thr_imul T w) as [T'|] eqn:ET; [|discriminate]. cbn [rbind] in H. injection H as <-. simpl.
  repeat match goal with |- _ /\ _ => split end; auto.
  - exists bls; auto.
  - eapply quad_weights_ok; eauto. eapply bandlimits_pos; eauto.
Qed.

Lemma S2_prior_wl1 : forall p X, List.length X = List.length (s_weights p) -> (forall q, In q (s_weights p) -> 0 <= q) ->
  S2_prior p X = Ok (wl1 (s_weights p) X).
Proof.
  intros p X L N. unfold S2_prior, np_mul. rewrite np_bin_same by (rewrite map_length; auto). cbn [rbind]. f_equal.
  unfold L1_prior, vabs, wl1. rewrite map_map2, map2_map_l. f_equal.
  revert L N. generalize X. induction (s_weights p) as [|q w IH]; intros [|x Y] L N; simpl in *; auto; try discriminate.
  f_equal; [|apply IH; auto]. rewrite Cmod_mult, Cmod_R, Rabs_right; auto. apply Rle_ge, N; auto.
Qed.

Lemma synth_soft : forall p X, p_setting p = "synthesis"%string -> proxf p X = soft X (p_T p).
Proof. intros p X H. unfold proxf. rewrite H. reflexivity. Qed.

Lemma analysis_unfold : forall p X, p_setting p = "analysis"%string -> proxf p X = proxf_analysis p X.
Proof. intros p X H. unfold proxf. rewrite H. reflexivity. Qed.

(** ** power weights *)
Lemma clex_ltb_spec : forall a b, clex_ltb a b = true <-> clex_lt a b.
Proof.
  intros a b. unfold clex_ltb, clex_lt.
  destruct (Rltb_spec (fst a) (fst b)); [tauto|]. destruct (Rltb_spec (fst b) (fst a)).
  - split; [discriminate|]. intros [H|[H _]]; lra.
  - destruct (Rltb_spec (snd a) (snd b)); split; auto; try discriminate.
    + intros _. right. split; lra.
    + intros [H|[_ H]]; lra.
Qed.
Lemma clex_lt_trans : forall a b c, clex_lt a b -> clex_lt b c -> clex_lt a c.
Proof. unfold clex_lt; intros; lra. Qed.
Lemma clex_lt_irrefl : forall a, ~ clex_lt a a.
Proof. unfold clex_lt; intros; lra. Qed.
Lemma clex_total : forall a b, ~ clex_lt a b -> clex_lt b a \/ a = b.
Proof.
  unfold clex_lt; intros a b H. destruct (Req_dec (fst a) (fst b)), (Req_dec (snd a) (snd b)).
  - right. apply C_ext; auto.
  - left. right. split; auto. lra.
  - left. left. lra.
  - left. left. lra.
Qed.

Lemma argmax_from_spec : forall l pre best bv, (best < List.length pre)%nat ->
  nth best pre (RtoC 0) = bv ->
  is_first_max (fun i => nth i pre (RtoC 0)) (List.length pre) best ->
  is_first_max (fun i => nth i (pre ++ l) (RtoC 0)) (List.length (pre ++ l)) (argmax_from l (List.length pre) best bv).
Proof.
  induction l as [|z l IH]; intros pre best bv Hb Hv HM; simpl.
  - rewrite app_nil_r. exact HM.
  - replace (pre ++ z :: l) with ((pre ++ [z]) ++ l) by (rewrite <- app_assoc; reflexivity).
    assert (LP : List.length (pre ++ [z]) = S (List.length pre)) by (rewrite app_length; simpl; lia).
    assert (OLD : forall i, (i < List.length pre)%nat -> nth i (pre ++ [z]) (RtoC 0) = nth i pre (RtoC 0)) by (intros; apply app_nth1; auto).
    assert (NEW : nth (List.length pre) (pre ++ [z]) (RtoC 0) = z) by (rewrite app_nth2, Nat.sub_diag by lia; reflexivity).
    destruct HM as [M1 [M2 M3]].
    destruct (clex_ltb bv z) eqn:E.
    + apply clex_ltb_spec in E. rewrite <- LP. apply IH; [lia|auto|]. split; [lia|]. split.
      * intros i Hi Q. rewrite NEW in Q. destruct (Nat.eq_dec i (List.length pre)) as [->|D].
        { rewrite NEW in Q. apply (clex_lt_irrefl _ Q). }
        rewrite OLD in Q by lia. apply (M2 i ltac:(lia)). rewrite Hv. eapply clex_lt_trans; eauto.
      * intros i Hi. rewrite NEW, OLD by lia.
        destruct (clex_total bv (nth i pre (RtoC 0))) as [Q|Q].
        { rewrite <- Hv. apply M2. lia. }
        { eapply clex_lt_trans; eauto. }
        { rewrite <- Q. auto. }
    + rewrite <- LP. apply IH; [lia|rewrite OLD by lia; auto|]. split; [lia|]. split.
      * intros i Hi Q. rewrite (OLD best) in Q by lia. destruct (Nat.eq_dec i (List.length pre)) as [->|D].
        { rewrite NEW, Hv in Q. apply clex_ltb_spec in Q. congruence. }
        rewrite OLD in Q by lia. apply (M2 i ltac:(lia) Q).
      * intros i Hi. rewrite !OLD by lia. auto.
Qed.
Lemma np_argmax_spec : forall l k, np_argmax l = Ok k -> is_first_max (fun i => nth i l (RtoC 0)) (List.length l) k.
Proof.
  intros [|z l] k H; [discriminate|]. injection H as <-. apply (argmax_from_spec l [z] 0 z); auto.
  split; [simpl; lia|]. split; intros i Hi.
  - simpl in Hi. assert (i = 0%nat) by lia. subst. apply clex_lt_irrefl.
  - lia.
Qed.
Lemma is_first_max_unique : forall g n a b, is_first_max g n a -> is_first_max g n b -> a = b.
Proof.
  intros g n a b [A1 [A2 A3]] [B1 [B2 B3]]. destruct (lt_eq_lt_dec a b) as [[H|H]|H]; auto; exfalso.
  - apply (A2 b B1). auto.
  - apply (B2 a A1). auto.
Qed.

Lemma sin_weights_rows : forall b c, is_row_map b (fun t => c * sin (INR (2 * t + 1) * PI / INR (2 * b - 1))) (sin_weights b c).
Proof.
  intros b c. unfold sin_weights, sample_thetas. rewrite flat_map_concat_map, map_map, <- flat_map_concat_map. split.
  - rewrite (flat_map_const_length _ (2 * b - 1)) by (intros; apply repeat_length). rewrite seq_length. reflexivity.
  - intros t p Ht Hp. rewrite (nth_flat_map_seq _ (2 * b - 1)) by (auto; intros; apply repeat_length).
    rewrite nth_repeat_lt by auto. reflexivity.
Qed.
Lemma is_row_map_ext : forall b f g w, (forall t, f t = g t) -> is_row_map b f w -> is_row_map b g w.
Proof. intros b f g w E [A B]. split; auto. intros. rewrite B, E; auto. Qed.

Lemma sin_weights_nonneg : forall b c, 0 <= c -> forall x, In x (sin_weights b c) -> 0 <= x.
Proof.
  intros b c Hc x Hx. unfold sin_weights in Hx. apply in_flat_map in Hx. destruct Hx as [th [Hth Hx]].
  apply repeat_spec in Hx. subst x. unfold sample_thetas in Hth. apply in_map_iff in Hth. destruct Hth as [t [<- Ht]].
  apply in_seq in Ht. apply Rmult_le_pos; auto.
  destruct (strip_order b t ltac:(lia)) as [[A B] D]. unfold strip_bottom in *. apply sin_ge_0; lra.
Qed.
Lemma INR_nonneg_div : forall a b, 0 <= a -> 0 <= b -> 0 <= a / b.
Proof.
  intros a b Ha Hb. unfold Rdiv. destruct (Req_dec b 0) as [->|N].
  - rewrite Rinv_0. lra.
  - apply Rmult_le_pos; auto. left. apply Rinv_0_lt_compat. lra.
Qed.
Lemma int_pow_nonneg : forall n e r, int_pow n e = Ok r -> 0 <= r.
Proof.
  intros n [z|x] r H; simpl in H.
  - destruct (z <? 0)%Z; [discriminate|]. injection H as <-. apply pow_le, pos_INR.
  - injection H as <-. destruct n; [destruct (Reqb x 0); lra|]. left. apply exp_pos.
Qed.

Lemma wavelet_weights_in : forall L til0 til eta ww e, wavelet_weights L til0 til eta = Ok ww -> In e ww ->
  (1 <= fst e)%nat /\ exists c, 0 <= c /\ snd e = sin_weights (fst e) c.
Proof.
  intros L til0 til eta ww e H He. unfold wavelet_weights in H.
  destruct (multires_bandlimits L til0) as [bls|] eqn:EB; [|discriminate]. cbn [rbind] in H.
  destruct (rseq (map (m0_part L) (psi_cols til))) as [psi|] eqn:EP; [|discriminate]. cbn [rbind] in H.
  destruct (rseq (map np_argmax psi)) as [peaks|] eqn:EK; [|discriminate]. cbn [rbind] in H.
  apply rseq_ok in H. assert (I := in_map Ok _ _ He). rewrite <- H in I. apply in_map_iff in I.
  destruct I as [[[eL power] peak] [E Q]].
  assert (BL : In eL (tl bls) /\ In power (map nrm2 (psi_cols til))).
  { clear -Q. revert Q. generalize (map nrm2 (psi_cols til)), peaks. induction (tl bls) as [|x a IH]; intros [|y b] [|z c] Q; simpl in Q; try contradiction.
    destruct Q as [Q|Q]; [injection Q as -> -> ->; split; left; auto|]. apply IH in Q. destruct Q; split; right; auto. }
  destruct BL as [BL PW]. destruct (int_pow peak eta) as [pw|] eqn:EI; [|discriminate]. cbn [rbind] in E. injection E as <-. simpl.
  split.
  - apply (bandlimits_pos _ _ _ EB). destruct bls; [contradiction|right; auto].
  - eexists. split; [|reflexivity]. apply int_pow_nonneg in EI. apply in_map_iff in PW. destruct PW as [v [<- _]].
    apply INR_nonneg_div.
    + assert (0 <= PI * PI) by (apply Rle_0_sqr). simpl. nra.
    + apply Rmult_le_pos; [apply nrm2_nonneg|apply pos_INR].
Qed.

Lemma Power_init_inv : forall setting fwd adj T L til0 til eta p, Power_init setting fwd adj T L til0 til eta = Ok p ->
  exists b s ww, S2_init setting fwd adj T L til = Ok b /\ scaling_weights til = Ok s /\
    wavelet_weights L til0 til eta = Ok ww /\ s_weights p = (s ++ List.concat (map snd ww))%list /\
    p_setting (s_l1 p) = "synthesis"%string /\ thr_imul (p_T (s_l1 b)) (s_weights p) = Ok (p_T (s_l1 p)) /\
    (2 <= List.length (s_weights p))%nat /\ (forall x, In x (s_weights p) -> 0 <= x) /\
    ~ (forall e e', In e ww -> In e' ww -> fst e = fst e').
Proof.
  intros setting fwd adj T L til0 til eta p H. unfold Power_init in H.
  destruct (S2_init setting fwd adj T L til) as [b|] eqn:EB; [|discriminate]. cbn [rbind] in H.
  destruct (scaling_weights til) as [s|] eqn:ES; [|discriminate]. cbn [rbind] in H.
  destruct (wavelet_weights L til0 til eta) as [ww|] eqn:EW; [|discriminate]. cbn [rbind] in H.
  destruct ww as [|e ww]; [discriminate|]. destruct (all_same (map fst (e :: ww))) eqn:AS; [discriminate|].
  destruct (thr_imul (p_T (s_l1 b)) (s ++ List.concat (map snd (e :: ww)))) as [T'|] eqn:ET; [|discriminate].
  cbn [rbind] in H. injection H as <-. exists b, s, (e :: ww).
  assert (SB := S2_init_inv _ _ _ _ _ _ _ EB). cbn [s_weights s_l1 with_T p_setting p_T].
  assert (WI := wavelet_weights_in _ _ _ _ _ e EW ltac:(left; auto)). destruct WI as [W1 [c [W2 W3]]].
  assert (SS : exists k, bandlimit_of (phi_l til) = Ok k /\ s = sin_weights k (2 * PI ^ 2 / (nrm2 (phi_l til) * INR (sample_length k)))).
  { unfold scaling_weights in ES. destruct (bandlimit_of (phi_l til)); [|discriminate]. cbn [rbind] in ES. injection ES as <-. eauto. }
  destruct SS as [k [EK Es]].
  assert (K1 : (1 <= k)%nat) by (apply bandlimit_of_ok in EK; apply EK).
  repeat match goal with |- _ /\ _ => split end; auto.
  - apply SB.
  - destruct (sin_weights_rows k (2 * PI ^ 2 / (nrm2 (phi_l til) * INR (sample_length k)))) as [LS _].
    destruct (sin_weights_rows (fst e) c) as [LE _]. rewrite app_length, Es, LS. simpl. rewrite app_length, W3, LE. nia.
  - intros x Hx. apply in_app_or in Hx. destruct Hx as [Hx|Hx].
    + rewrite Es in Hx. revert Hx. apply sin_weights_nonneg. apply INR_nonneg_div.
      * assert (0 <= PI * PI) by (apply Rle_0_sqr). simpl. nra.
      * apply Rmult_le_pos; [apply nrm2_nonneg|apply pos_INR].
    + change (In x (List.concat (map snd (e :: ww)))) in Hx. apply in_concat in Hx. destruct Hx as [l [Hl Hx]]. apply in_map_iff in Hl. destruct Hl as [e' [<- He']].
      destruct (wavelet_weights_in _ _ _ _ _ e' EW He') as [_ [c' [C1 C2]]]. rewrite C2 in Hx.
      revert Hx. apply sin_weights_nonneg. auto.
  - intros AL. simpl in AS. assert (F : forallb (Nat.eqb (fst e)) (map fst ww) = true).
    { apply forallb_forall. intros x Hx. apply in_map_iff in Hx. destruct Hx as [e' [<- He']].
      apply Nat.eqb_eq. apply AL; simpl; auto. }
    congruence.
Qed.

Lemma Power_T : forall setting fwd adj t0 L til0 til eta p, Power_init setting fwd adj (TScal t0) L til0 til eta = Ok p ->
  exists b, S2_init setting fwd adj (TScal t0) L til = Ok b /\ List.length (s_weights b) = List.length (s_weights p) /\
    p_T (s_l1 p) = TVec (map2 (fun q w => t0 * q * w) (s_weights b) (s_weights p)).
Proof.
  intros setting fwd adj t0 L til0 til eta p H. destruct (Power_init_inv _ _ _ _ _ _ _ _ _ H) as [b [s [ww [EB [ES [EW [W [PS [ET [L2 [_ _]]]]]]]]]]].
  exists b. split; auto. destruct (S2_init_inv _ _ _ _ _ _ _ EB) as [_ [_ [EI _]]]. cbn [thr_imul] in EI.
  injection EI as EI. rewrite <- EI in ET. cbn [thr_imul] in ET. rewrite map_length in ET.
  destruct (Nat.eqb_spec (List.length (s_weights b)) (List.length (s_weights p))) as [E|E].
  - split; auto. injection ET as <-. f_equal. apply map2_map_l.
  - exfalso. destruct (s_weights p) as [|x [|y w]]; simpl in *; try lia; discriminate.
Qed.
Lemma Power_prior_wl1 : forall p u, List.length u = List.length (s_weights p) -> (forall q, In q (s_weights p) -> 0 <= q) ->
  Power_prior p u = Ok (wl1 (map (fun w => w * w) (s_weights p)) u).
Proof.
  intros p u L N. unfold Power_prior, np_mul. rewrite np_bin_same by (rewrite map_length; auto). cbn [rbind].
  rewrite S2_prior_wl1; auto.
  - f_equal. unfold wl1. rewrite map2_map_l. f_equal. revert L N. generalize u. induction (s_weights p) as [|q w IH]; intros [|x Y] L N; simpl in *; auto; try discriminate.
    f_equal; [|apply IH; auto]. rewrite Cmod_mult, Cmod_R, Rabs_right; [ring|]. apply Rle_ge, N; auto.
  - rewrite map2_length; rewrite map_length; auto.
Qed.

Lemma soft1_big : forall x t, 0 <= t < x -> soft1 (RtoC x) t = RtoC (x - t).
Proof.
  intros x t H. unfold soft1. rewrite Cmod_R, Rabs_right by lra.
  destruct (Rle_dec x t); [lra|]. destruct (Req_EM_T x 0); [lra|]. rewrite <- RtoC_mult. f_equal. field. lra.
Qed.
Lemma nth_wl1_weights : forall {A B} (f : A -> B) l i d d', (i < List.length l)%nat -> nth i (map f l) d = f (nth i l d').
Proof. intros. apply nth_map_in; auto. Qed.

(** if the minimiser for weights A is soft thresholding with thresholds B, then A = B *)
Lemma prox_weights_unique : forall A B, List.length A = List.length B ->
  (forall t, In t A -> 0 <= t) -> (forall t, In t B -> 0 <= t) ->
  (forall X, List.length X = List.length A -> unique_minimiser (wl1 A) X (map2 soft1 X B)) -> A = B.
Proof.
  intros A B L NA NB H. apply (nth_ext _ _ 0 0 L). intros i Hi.
  set (big := Rmax (nth i A 0) (nth i B 0) + 1).
  set (X := repeat (RtoC big) (List.length A)).
  assert (LX : List.length X = List.length A) by apply repeat_length.
  assert (U := H X LX). assert (V := soft_is_prox X A (eq_sym LX) NA).
  destruct U as [_ [_ U]]. assert (E := U (map2 soft1 X A)).
  assert (LS : List.length (map2 soft1 X A) = List.length X) by (apply map2_length; auto).
  specialize (E LS). destruct (is_prox_unique_minimiser _ _ _ V) as [_ [V2 _]].
  assert (LS' : List.length (map2 soft1 X B) = List.length X) by (apply map2_length; congruence).
  specialize (E (V2 _ LS')).
  apply (f_equal (fun l => nth i l (RtoC 0))) in E.
  rewrite !(nth_map2 _ _ _ _ (RtoC 0) 0) in E by congruence.
  unfold X in E. rewrite nth_repeat_lt in E by auto.
  assert (A0 : 0 <= nth i A 0) by (apply NA, nth_In; auto).
  assert (B0 : 0 <= nth i B 0) by (apply NB, nth_In; congruence).
  assert (M1 := Rmax_l (nth i A 0) (nth i B 0)). assert (M2 := Rmax_r (nth i A 0) (nth i B 0)).
  rewrite !soft1_big in E by (unfold big; lra). apply RtoC_inj in E. lra.
Qed.

Lemma Power_consistent_iff : forall setting fwd adj t0 L til0 til eta p, 0 < t0 ->
  Power_init setting fwd adj (TScal t0) L til0 til eta = Ok p ->
  exists b, S2_init setting fwd adj (TScal t0) L til = Ok b /\
  let n := List.length (s_weights p) in
  ((forall X s g, List.length X = n -> S2_proxf p X = Ok s ->
      (forall u, List.length u = n -> Power_prior p u = Ok (g u)) -> unique_minimiser (fun u => t0 * g u) X s)
   <-> (forall i, (i < n)%nat -> nth i (s_weights b) 0 * nth i (s_weights p) 0 = nth i (s_weights p) 0 * nth i (s_weights p) 0)).
Proof.
  intros setting fwd adj t0 L til0 til eta p Ht H. destruct (Power_T _ _ _ _ _ _ _ _ _ H) as [b [EB [LE ET]]].
  exists b. split; auto. cbv zeta. set (n := List.length (s_weights p)) in *.
  destruct (Power_init_inv _ _ _ _ _ _ _ _ _ H) as [b' [s [ww [EB' [ES [EW [W [PS [EI [L2 [NN _]]]]]]]]]]].
  assert (b' = b) by congruence. subst b'.
  destruct (S2_init_inv _ _ _ _ _ _ _ EB) as [_ [_ [_ [_ QP]]]].
  set (A := map (Rmult t0) (map (fun w => w * w) (s_weights p))).
  set (B := map2 (fun q w => t0 * q * w) (s_weights b) (s_weights p)) in *.
  assert (LA : List.length A = n) by (unfold A; rewrite !map_length; auto).
  assert (LB : List.length B = n) by (unfold B; rewrite map2_length; auto).
  assert (nA : forall i, (i < n)%nat -> nth i A 0 = t0 * (nth i (s_weights p) 0 * nth i (s_weights p) 0)).
  { intros i Hi. unfold A. rewrite map_map, (nth_map_in _ _ _ _ 0) by auto. reflexivity. }
  assert (nB : forall i, (i < n)%nat -> nth i B 0 = t0 * (nth i (s_weights b) 0 * nth i (s_weights p) 0)).
  { intros i Hi. unfold B. rewrite (nth_map2 _ _ _ _ 0 0) by lia. ring. }
  assert (SX : forall X, List.length X = n -> S2_proxf p X = Ok (map2 soft1 X B)).
  { intros X LX. unfold S2_proxf. rewrite synth_soft, ET by auto. apply soft_same. congruence. }
  assert (NA : forall t, In t A -> 0 <= t).
  { intros t Ht'. unfold A in Ht'. rewrite map_map in Ht'. apply in_map_iff in Ht'. destruct Ht' as [w [<- _]].
    apply Rmult_le_pos; [lra|apply Rle_0_sqr]. }
  assert (NB : forall t, In t B -> 0 <= t).
  { intros t Ht'. apply (In_nth _ _ 0) in Ht'. destruct Ht' as [i [Hi <-]]. rewrite LB in Hi. rewrite nB by auto.
    apply Rmult_le_pos; [lra|]. apply Rmult_le_pos; [left; apply QP|apply NN]; apply nth_In; lia. }
  assert (GW : forall g, (forall u, List.length u = n -> Power_prior p u = Ok (g u)) -> forall u, List.length u = n -> t0 * g u = wl1 A u).
  { intros g Hg u Hu. specialize (Hg u Hu). rewrite Power_prior_wl1 in Hg by auto. injection Hg as <-. unfold A.
    symmetry. apply wl1_scal. }
  split.
  - intros Q. assert (E : A = B).
    { apply prox_weights_unique; auto; [congruence|]. intros X LX. rewrite LA in LX.
      set (g := fun u => wl1 (map (fun w => w * w) (s_weights p)) u).
      assert (G : forall u, List.length u = n -> Power_prior p u = Ok (g u)) by (intros; apply Power_prior_wl1; auto).
      assert (U := Q X _ g LX (SX X LX) G). destruct U as [U1 [U2 U3]]. unfold unique_minimiser, prox_objective in *.
      split; [auto|]. split.
      - intros u Hu. rewrite <- !(GW g G) by congruence. apply U2. auto.
      - intros u Hu. rewrite <- !(GW g G) by congruence. apply U3. auto. }
    intros i Hi. apply (Rmult_eq_reg_l t0); [|lra]. rewrite <- nA, <- nB by auto. congruence.
  - intros Q. assert (E : A = B).
    { apply (nth_ext _ _ 0 0); [congruence|]. intros i Hi. rewrite LA in Hi. rewrite nA, nB, Q by auto. reflexivity. }
    intros X s' g LX ES' G. rewrite SX in ES' by auto. injection ES' as <-.
    apply is_prox_unique_minimiser. apply (is_prox_ext (wl1 B)).
    + intros u Hu. rewrite (GW g G) by congruence. congruence.
    + apply soft_is_prox; auto. congruence.
Qed.

Lemma thr_imul_spec : forall T w,
  match T with
  | TScal t => thr_imul T w = Ok (TVec (map (fun x => t * x) w))
  | TVec ts =>
      (List.length ts = List.length w -> thr_imul T w = Ok (TVec (map2 Rmult ts w))) /\
      (List.length ts <> List.length w -> List.length w <> 1%nat -> thr_imul T w = Raise ValueError)
  end.
Proof.
  intros [t|ts] w; [reflexivity|]. simpl. split; intros H.
  - rewrite (proj2 (Nat.eqb_eq _ _) H). reflexivity.
  - intros H1. rewrite (proj2 (Nat.eqb_neq _ _) H). destruct w as [|c [|d w]]; auto. simpl in H1. congruence.
Qed.

Lemma zip3_length : forall {A B D} (a : list A) (b : list B) (c : list D),
  List.length (zip3 a b c) = Nat.min (List.length a) (Nat.min (List.length b) (List.length c)).
Proof. induction a; destruct b, c; simpl; auto. Qed.
Lemma nth_zip3 : forall {A B D} (a : list A) (b : list B) (c : list D) i x y z,
  (i < List.length (zip3 a b c))%nat -> nth i (zip3 a b c) (x, y, z) = (nth i a x, nth i b y, nth i c z).
Proof. induction a; destruct b, c; simpl; intros i x y z H; try lia. destruct i; auto. apply IHa. lia. Qed.
Lemma map_Ok_nth : forall {A B} (f : A -> res B) l r i a b, map f l = map Ok r -> (i < List.length l)%nat ->
  f (nth i l a) = Ok (nth i r b).
Proof.
  induction l; destruct r; simpl; intros i a0 b0 H Hi; try lia; try discriminate. injection H as H1 H2.
  destruct i; auto. apply IHl; auto. lia.
Qed.
Lemma map_Ok_length : forall {A B} (f : A -> res B) l r, map f l = map Ok r -> List.length r = List.length l.
Proof. intros A B f l r H. apply (f_equal (@List.length _)) in H. rewrite !map_length in H. auto. Qed.

Lemma wavelet_weights_spec : forall L til0 til eta ww, wavelet_weights L til0 til eta = Ok ww ->
  List.length ww = Nat.min (List.length (psi_cols til0)) (List.length (psi_cols til)) /\
  forall j, (j < List.length ww)%nat ->
    exists b peak pw,
      is_bandlimit (window_m0 L (nth j (psi_cols til0) [])) b /\
      is_first_max (window_m0 L (nth j (psi_cols til) [])) L peak /\
      int_pow peak eta = Ok pw /\ fst (nth j ww (0%nat, [])) = b /\
      is_row_map b (power_weight b pw (nrm2 (nth j (psi_cols til) []))) (snd (nth j ww (0%nat, []))).
Proof.
  intros L til0 til eta ww H. unfold wavelet_weights in H.
  destruct (multires_bandlimits L til0) as [bls|] eqn:EB; [|discriminate]. cbn [rbind] in H.
  destruct (rseq (map (m0_part L) (psi_cols til))) as [psi|] eqn:EP; [|discriminate]. cbn [rbind] in H.
  destruct (rseq (map np_argmax psi)) as [peaks|] eqn:EK; [|discriminate]. cbn [rbind] in H.
  apply rseq_ok in H. apply rseq_ok in EK.
  assert (PL : forall x, In x (psi_cols til) -> psi_long L x).
  { intros x Hx. destruct (classic (psi_long L x)) as [Q|Q]; auto. exfalso.
    apply rseq_ok in EP. apply (in_map (m0_part L)) in Hx. rewrite EP in Hx. rewrite (m0_part_short _ _ Q) in Hx.
    apply in_map_iff in Hx. destruct Hx as [? [? _]]. discriminate. }
  rewrite (psi_rows _ _ PL) in EP. injection EP as <-.
  assert (LK := map_Ok_length _ _ _ EK). rewrite map_length in LK.
  assert (LB : exists b0 bs, bls = b0 :: bs).
  { destruct bls; eauto. exfalso. unfold multires_bandlimits in EB. destruct (rseq (map (m0_part L) (psi_cols til0))); simpl in EB; [|discriminate].
    destruct (Nat.eqb (List.length (phi_l til0)) L); [|discriminate]. destruct (bandlimit_of (phi_l til0)); simpl in EB; [|discriminate].
    destruct (rseq (map bandlimit_of a)); discriminate. }
  destruct LB as [b0 [bs ->]]. apply multires_ok in EB. destruct EB as [_ [_ [_ F]]]. simpl tl in H.
  assert (LF : List.length bs = List.length (psi_cols til0)) by (clear -F; induction F; simpl; auto).
  assert (LW := map_Ok_length _ _ _ H). rewrite zip3_length, map_length, LK, LF in LW.
  split; [lia|]. intros j Hj.
  assert (Hz : (j < List.length (zip3 bs (map nrm2 (psi_cols til)) peaks))%nat) by (rewrite zip3_length, map_length; lia).
  assert (E := map_Ok_nth _ _ _ j (0%nat, 0, 0%nat) (0%nat, []) H Hz).
  rewrite nth_zip3 in E by auto. destruct (int_pow (nth j peaks 0%nat) eta) as [pw|] eqn:EI; [|discriminate].
  cbn [rbind] in E. injection E as E.
  exists (nth j bs 0%nat), (nth j peaks 0%nat), pw. repeat match goal with |- _ /\ _ => split end.
  - assert (J : (j < List.length bs)%nat) by lia. clear -F J. revert j J. induction F; intros j J; simpl in *; [lia|].
    destruct j; auto. apply IHF. lia.
  - assert (Hp : (j < List.length (psi_cols til))%nat) by lia.
    assert (K := map_Ok_nth _ _ _ j [] 0%nat EK ltac:(rewrite map_length; lia)). apply np_argmax_spec in K.
    rewrite (nth_map_in _ _ _ _ []) in K by lia. rewrite map_length, seq_length in K.
    destruct K as [K1 [K2 K3]].
    assert (W : forall i, (i < L)%nat -> nth i (map (window_m0 L (nth j (psi_cols til) [])) (seq 0 L)) (RtoC 0) = window_m0 L (nth j (psi_cols til) []) i).
    { intros i Hi. apply (window_m0_window L (nth j (psi_cols til) []) i). }
    split; [auto|]. split.
    + intros i Hi. rewrite <- !W by auto. apply K2; auto.
    + intros i Hi. rewrite <- !W by lia. apply K3; auto.
  - exact EI.
  - rewrite <- E. reflexivity.
  - rewrite <- E. cbn [snd]. rewrite (nth_map_in _ _ _ _ []) by lia.
    apply (is_row_map_ext _ _ _ _ (fun t => eq_refl)) , sin_weights_rows.
Qed.
