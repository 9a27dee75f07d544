(** C29-C32: the measurement operators. *)
From Coq Require Import List ZArith Lia Bool Reals Lra Psatz.
From Coquelicot Require Import Coquelicot.
From Verif Require Import PyBase PyBaseFacts CVec OpSpec Measure MeasSpec MeasProof.
Import ListNotations.
Open Scope R_scope.

(** ** C29: Identity *)

Theorem C29_values : forall ndata npix x,
  (length x = npix -> Identity_forward ndata npix x = Ok (pad_or_cut ndata x)) /\
  (length x = ndata -> Identity_adjoint ndata npix x = Ok (pad_or_cut npix x)) /\
  (length x <> npix -> Identity_forward ndata npix x = Raise AssertionError) /\
  (length x <> ndata -> Identity_adjoint ndata npix x = Raise AssertionError).
Proof.
  intros ndata npix x. unfold Identity_forward, Identity_adjoint, np_dot. simpl m_cols.
  split; [|split; [|split]]; intros H.
  - rewrite (proj2 (Nat.eqb_eq _ _) H), eye_dot by auto. reflexivity.
  - rewrite (proj2 (Nat.eqb_eq _ _) H), eyeH_dot by auto. reflexivity.
  - rewrite (proj2 (Nat.eqb_neq _ _) H). reflexivity.
  - rewrite (proj2 (Nat.eqb_neq _ _) H). reflexivity.
Qed.
Print Assumptions C29_values.

Theorem C29_adjoint : forall ndata npix,
  adjoint_pair (Identity_forward ndata npix) (Identity_adjoint ndata npix) npix ndata.
Proof.
  intros ndata npix. apply (adjoint_pair_ext _ _ _ _ _ _ (np_dot_adjoint (eye ndata npix))).
  - intros x H. unfold Identity_forward. simpl in H. rewrite H, Nat.eqb_refl. reflexivity.
  - intros x H. unfold Identity_adjoint. simpl in H. rewrite H, Nat.eqb_refl. reflexivity.
Qed.
Print Assumptions C29_adjoint.

Theorem C29_equal_sizes : forall n x, length x = n -> Identity_forward n n x = Ok x /\ Identity_adjoint n n x = Ok x.
Proof.
  intros n x H. destruct (C29_values n n x) as (A & B & _). rewrite A, B by auto. rewrite <- H, pad_or_cut_id. auto.
Qed.
Print Assumptions C29_equal_sizes.

Example C29_case :
  Identity_forward 3 2 [RtoC 5; RtoC 7] = Ok [RtoC 5; RtoC 7; RtoC 0] /\
  Identity_forward 1 2 [RtoC 5; RtoC 7] = Ok [RtoC 5] /\ Identity_adjoint 1 2 [RtoC 5] = Ok [RtoC 5; RtoC 0].
Proof.
  destruct (C29_values 3 2 [RtoC 5; RtoC 7]) as (A & _). destruct (C29_values 1 2 [RtoC 5; RtoC 7]) as (B & _).
  destruct (C29_values 1 2 [RtoC 5]) as (_ & D & _). rewrite A, B, D by reflexivity. auto.
Qed.

(** ** C30: PathIntegral *)

Theorem C30_values : forall P x,
  (length x = m_cols P -> exists y, Path_forward P x = Ok y /\ is_product P x y) /\
  (length x <> m_cols P -> Path_forward P x = Raise AssertionError) /\
  (length x <> m_rows P -> Path_adjoint P x = Raise AssertionError).
Proof.
  intros P x. unfold Path_forward, Path_adjoint, np_dot. split; [|split]; intros H.
  - rewrite (proj2 (Nat.eqb_eq _ _) H). exists (matvec P x). split; [reflexivity|]. split; [apply matvec_length|].
    intros i Hi. apply nth_matvec; auto.
  - rewrite (proj2 (Nat.eqb_neq _ _) H). reflexivity.
  - rewrite (proj2 (Nat.eqb_neq _ _) H). reflexivity.
Qed.
Print Assumptions C30_values.

Theorem C30_adjoint : forall P, adjoint_pair (Path_forward P) (Path_adjoint P) (m_cols P) (m_rows P).
Proof.
  intros P. apply (adjoint_pair_ext _ _ _ _ _ _ (np_dot_adjoint P)).
  - intros x H. unfold Path_forward. rewrite H, Nat.eqb_refl. reflexivity.
  - intros x H. unfold Path_adjoint. rewrite H, Nat.eqb_refl. reflexivity.
Qed.
Print Assumptions C30_adjoint.

(** a complex 1x2 matrix: the adjoint conjugates *)
Example C30_case :
  let P := mkMat 1 2 (fun _ j => if Nat.eqb j 0 then Ci else RtoC 2) in
  Path_forward P [RtoC 1; RtoC 3] = Ok [(6, 1)] /\ Path_adjoint P [RtoC 1] = Ok [Copp Ci; RtoC 2].
Proof.
  intros P. unfold Path_forward, Path_adjoint, np_dot, matvec, P, getH. simpl. unfold Ci, Cconj. simpl.
  split; f_equal; [f_equal; cplx|]. f_equal; [cplx|f_equal; cplx].
Qed.

(** ** C31: harmonic weak lensing *)

Theorem C31_construction : forall L,
  ((L < 1)%Z -> WLH_init L = Raise ValueError) /\
  ((1 <= L)%Z -> exists w, WLH_init L = Ok w /\ length (wl_kernel w) = Z.to_nat (L * L) /\
     (forall i, (i < 4)%nat -> (i < Z.to_nat (L * L))%nat -> nth i (wl_kernel w) 0 = 1) /\
     (forall l m, (2 <= l < L)%Z -> (- l <= m <= l)%Z ->
        nth (lm_index l m) (wl_kernel w) 0 = shear_factor (Z.to_nat l))).
Proof.
  intros L. unfold WLH_init. split; intros H.
  - destruct (Z.ltb_spec L 1); [reflexivity|lia].
  - destruct (Z.ltb_spec L 1); [lia|]. set (n := Z.to_nat L). assert (E : L = Z.of_nat n) by lia. rewrite E.
    destruct (compute_harmonic_kernel (Z.of_nat n)) as [k|] eqn:K; [|rewrite kernel_layout in K by lia; discriminate].
    cbn [rbind]. eexists; split; [reflexivity|]. simpl wl_kernel.
    split; [rewrite (kernel_length n k) by (auto; lia); lia|]. split.
    + intros i Hi H1. apply (kernel_head n k i); auto; lia.
    + intros l m Hl Hm. unfold lm_index. replace (Z.to_nat (l * l + l + m)) with (Z.to_nat l * Z.to_nat l + Z.to_nat (l + m))%nat by nia.
      apply (kernel_degree n); auto; lia.
Qed.
Print Assumptions C31_construction.

Lemma wlh_facts : forall L w, WLH_init L = Ok w -> exists n, L = Z.of_nat n /\ (1 <= n)%nat /\
  w = mkWLH L (wl_kernel w) /\ compute_harmonic_kernel (Z.of_nat n) = Ok (wl_kernel w) /\ length (wl_kernel w) = (n * n)%nat.
Proof.
  intros L w E. unfold WLH_init in E. destruct (Z.ltb_spec L 1); [discriminate|]. exists (Z.to_nat L).
  assert (EL : L = Z.of_nat (Z.to_nat L)) by lia. rewrite EL in E at 1.
  destruct (compute_harmonic_kernel (Z.of_nat (Z.to_nat L))) as [k|] eqn:K; [|discriminate]. cbn [rbind] in E. injection E as <-.
  split; [exact EL|]. split; [lia|]. split; [reflexivity|]. split; [reflexivity|]. apply (kernel_length (Z.to_nat L) k); auto; lia.
Qed.

(** forward multiplies by the kernel and removes l < 2; every harmonic vector *)
Theorem C31_forward : forall L w x, WLH_init L = Ok w -> length x = Z.to_nat (L * L) ->
  exists y, WLH_forward w x = Ok y /\ length y = length x /\ nrm2 y <= nrm2 x /\
    (forall i, (i < 4)%nat -> (i < length x)%nat -> nth i y (RtoC 0) = RtoC 0) /\
    (forall l m, (2 <= l < L)%Z -> (- l <= m <= l)%Z ->
       nth (lm_index l m) y (RtoC 0) = (RtoC (shear_factor (Z.to_nat l)) * nth (lm_index l m) x (RtoC 0))%C).
Proof.
  intros L w x E Lx. destruct (wlh_facts L w E) as (n & EL & Hn & Ew & K & LK).
  assert (LKx : length (wl_kernel w) = length x) by (rewrite LK, Lx; nia).
  exists (rdiag (eff (wl_kernel w)) x). unfold WLH_forward. rewrite Ew at 1. rewrite mapping_value by auto.
  assert (Le : length (eff (wl_kernel w)) = length x) by (rewrite eff_length; auto).
  split; [reflexivity|]. split; [apply rdiag_length; auto|]. split; [|split].
  - apply rdiag_contraction; auto. intros r Hr. destruct (In_nth _ _ 0 Hr) as (i & Hi & <-). rewrite eff_length in Hi.
    rewrite eff_nth by auto. destruct (Nat.ltb_spec i 4); [lra|].
    assert (B := kernel_bounds n (wl_kernel w) i Hn K ltac:(lia)). lra.
  - intros i Hi Hi'. rewrite rdiag_nth by auto. rewrite eff_nth by lia. destruct (Nat.ltb_spec i 4); [|lia]. cplx.
  - intros l m Hl Hm. destruct (C31_construction L) as (_ & C). destruct (C ltac:(lia)) as (w' & E' & _ & _ & V).
    rewrite E in E'. injection E' as <-.
    assert (I : (lm_index l m < length x)%nat) by (unfold lm_index; rewrite Lx; nia).
    assert (I4 : (4 <= lm_index l m)%nat) by (unfold lm_index; nia).
    rewrite rdiag_nth by auto. rewrite eff_nth by lia. destruct (Nat.ltb_spec (lm_index l m) 4); [lia|]. rewrite V by auto. reflexivity.
Qed.
Print Assumptions C31_forward.

(** linear and self-adjoint; adjoint is the same function *)
Theorem C31_self_adjoint : forall L w, WLH_init L = Ok w ->
  adjoint_pair (WLH_forward w) (WLH_adjoint w) (Z.to_nat (L * L)) (Z.to_nat (L * L)) /\
  adjoint_pair (WLH_forward w) (WLH_forward w) (Z.to_nat (L * L)) (Z.to_nat (L * L)) /\
  linear (WLH_forward w) (Z.to_nat (L * L)).
Proof.
  intros L w E. destruct (wlh_facts L w E) as (n & EL & Hn & Ew & K & LK).
  replace (Z.to_nat (L * L)) with (length (wl_kernel w)) by (rewrite LK; nia).
  assert (A : adjoint_pair (harmonic_mapping w) (harmonic_mapping w) (length (wl_kernel w)) (length (wl_kernel w))).
  { rewrite <- eff_length. apply (adjoint_pair_ext _ _ _ _ _ _ (rdiag_adjoint (eff (wl_kernel w)))).
    - intros x H. rewrite Ew at 1. apply mapping_value. rewrite eff_length in H. auto.
    - intros x H. rewrite Ew at 1. apply mapping_value. rewrite eff_length in H. auto. }
  split; [exact A|]. split; [exact A|]. apply (adjoint_linear _ _ _ _ A).
Qed.
Print Assumptions C31_self_adjoint.

(** sks_estimate inverts forward on l >= 2 and zeroes l < 2 *)
Theorem C31_sks_estimate : forall L w x, WLH_init L = Ok w -> length x = Z.to_nat (L * L) ->
  exists z, (let* y := WLH_forward w x in WLH_sks_estimate w y) = Ok z /\
    (let* y := WLH_sks_estimate w x in WLH_forward w y) = Ok z /\ length z = length x /\
    forall i, (i < length x)%nat -> nth i z (RtoC 0) = if Nat.ltb i 4 then RtoC 0 else nth i x (RtoC 0).
Proof.
  intros L w x E Lx. destruct (wlh_facts L w E) as (n & EL & Hn & Ew & K & LK).
  assert (LKx : length (wl_kernel w) = length x) by (rewrite LK, Lx; nia).
  assert (NZ : forall i, (4 <= i < length (wl_kernel w))%nat -> nth i (wl_kernel w) 0 <> 0).
  { intros i Hi. assert (B := kernel_bounds n (wl_kernel w) i Hn K ltac:(lia)). lra. }
  unfold WLH_forward, WLH_sks_estimate. rewrite Ew.
  set (k := wl_kernel w) in *. clearbody k.
  assert (L1 : length (eff k) = length x) by (rewrite eff_length; auto).
  assert (L2 : length (eff (map Rinv k)) = length x) by (rewrite eff_length, map_length; auto).
  exists (rdiag (eff (map Rinv k)) (rdiag (eff k) x)).
  rewrite mapping_value by auto. cbn [rbind]. rewrite !inverse_mapping_value by (rewrite ?rdiag_length; auto). cbn [rbind].
  rewrite mapping_value by (rewrite rdiag_length; auto).
  split; [reflexivity|]. split.
  - f_equal. apply (list_eq_nth _ _ (RtoC 0)); [rewrite !rdiag_length; rewrite ?rdiag_length; auto|].
    intros i Hi. rewrite rdiag_length in Hi by (rewrite rdiag_length; auto). rewrite rdiag_length in Hi by auto.
    rewrite !rdiag_nth by (rewrite ?rdiag_length; auto). ring.
  - split; [rewrite !rdiag_length; rewrite ?rdiag_length; auto|].
    intros i Hi. rewrite !rdiag_nth by (rewrite ?rdiag_length; auto). rewrite !eff_nth by (rewrite ?map_length; lia).
    destruct (Nat.ltb_spec i 4); [cplx|]. rewrite (nth_map_in _ _ _ _ 0%R) by lia.
    rewrite Cmult_assoc, <- RtoC_mult, Rinv_l by (apply NZ; lia). cplx.
Qed.
Print Assumptions C31_sks_estimate.

(** a vector of another length raises ValueError (numpy broadcasts length 1) *)
Theorem C31_wrong_length : forall L w x, WLH_init L = Ok w -> (2 <= L)%Z ->
  length x <> Z.to_nat (L * L) -> length x <> 1%nat -> WLH_forward w x = Raise ValueError.
Proof.
  intros L w x E HL N N1. destruct (wlh_facts L w E) as (n & EL & Hn & Ew & K & LK).
  unfold WLH_forward, harmonic_mapping, np_mul. rewrite np_bin_raise; [reflexivity|..]; rewrite ?map_length, ?LK; auto; nia.
Qed.
Print Assumptions C31_wrong_length.

(** L = 3: the factor at l = 2 is -sqrt(2/3) *)
Example C31_case : exists w, WLH_init 3 = Ok w /\ length (wl_kernel w) = 9%nat /\
  forall i, (4 <= i < 9)%nat -> nth i (wl_kernel w) 0 = - sqrt (2 / 3).
Proof.
  destruct (C31_construction 3) as (_ & C). destruct (C ltac:(lia)) as (w & E & LK & _ & V). exists w. split; [exact E|]. split; [exact LK|].
  intros i Hi. assert (V' := V 2%Z (Z.of_nat i - 6)%Z ltac:(lia) ltac:(lia)). unfold lm_index in V'.
  replace (Z.to_nat (2 * 2 + 2 + (Z.of_nat i - 6))) with i in V' by lia. rewrite V'. unfold shear_factor. simpl INR. f_equal. f_equal. field.
Qed.

(** ** C32: masked weak lensing *)

(** a mask of the map's shape *)
Definition map_mask (L : nat) (m : bmask) : Prop :=
  b_shape m = [L; (2 * L - 1)%nat] /\ length (b_bits m) = (L * (2 * L - 1))%nat.

Lemma shape_eqb_refl : forall s, shape_eqb s s = true.
Proof. intros. unfold shape_eqb. destruct (list_eq_dec _ s s); congruence. Qed.
Lemma mask_forward_value : forall {A} L m (f : list A), map_mask L m ->
  mask_forward L m [L; (2 * L - 1)%nat] f = Ok (select (b_bits m) f).
Proof.
  intros A L m f (Sh & LB). unfold mask_forward, bool_index. rewrite shape_eqb_refl, Sh, !Nat.eqb_refl. reflexivity.
Qed.

(** mask_forward lists the unmasked pixels in row-major order, for elements of
    any type *)
Theorem C32_mask_forward : forall A (d : A) L m f, map_mask L m -> length f = (L * (2 * L - 1))%nat ->
  mask_forward L m [L; (2 * L - 1)%nat] f = Ok (map (fun p => nth p f d) (set_positions (b_bits m))).
Proof.
  intros A d L m f M LF. rewrite mask_forward_value by auto. f_equal. apply select_spec. destruct M; congruence.
Qed.
Print Assumptions C32_mask_forward.

Theorem C32_mask_forward_shape : forall A L m shape (f : list A), shape <> [L; (2 * L - 1)%nat] ->
  mask_forward L m shape f = Raise ValueError.
Proof.
  intros A L m shape f N. unfold mask_forward. simpl is_not_itself. cbv iota. unfold shape_eqb.
  destruct (list_eq_dec _ _ _); [contradiction|reflexivity].
Qed.
Print Assumptions C32_mask_forward_shape.

(** mask_adjoint puts the observations back, zero elsewhere; it is a right
    inverse of mask_forward *)
Theorem C32_mask_adjoint : forall A (zero : A) L m x, map_mask L m -> length x = length (set_positions (b_bits m)) ->
  exists f, mask_adjoint zero L m x = Ok f /\ length f = (L * (2 * L - 1))%nat /\
    (forall j, (j < length x)%nat -> nth (nth j (set_positions (b_bits m)) 0%nat) f zero = nth j x zero) /\
    (forall p, (p < length f)%nat -> nth p (b_bits m) false = false -> nth p f zero = zero) /\
    mask_forward L m [L; (2 * L - 1)%nat] f = Ok x.
Proof.
  intros A zero L m x M Lx. rewrite set_positions_count in Lx. assert (M' := M). destruct M' as (Sh & LB).
  exists (scatter zero (b_bits m) (repeat zero (L * (2 * L - 1))) x).
  assert (LR : length (b_bits m) = length (repeat zero (L * (2 * L - 1)))) by (rewrite repeat_length; auto).
  assert (LS : length (scatter zero (b_bits m) (repeat zero (L * (2 * L - 1))) x) = (L * (2 * L - 1))%nat) by (rewrite scatter_length, repeat_length; auto).
  assert (MF : mask_forward L m [L; (2 * L - 1)%nat] (scatter zero (b_bits m) (repeat zero (L * (2 * L - 1))) x) = Ok x).
  { rewrite mask_forward_value by auto. rewrite select_scatter; auto. }
  split; [unfold mask_adjoint, bool_assign; simpl is_not_itself; cbv iota; rewrite Lx, Nat.eqb_refl; reflexivity|].
  split; [exact LS|]. split; [|split; [|exact MF]].
  - intros j Hj. rewrite (C32_mask_forward A zero L m _ M LS) in MF. injection MF as MF.
    rewrite <- MF at 2. rewrite (nth_map_in _ _ _ _ 0%nat) by (rewrite set_positions_count; lia). reflexivity.
  - intros p Hp HB. rewrite scatter_length in Hp. rewrite scatter_nth_clear by auto. rewrite repeat_length in Hp. apply nth_repeat_in; auto.
Qed.
Print Assumptions C32_mask_adjoint.

Theorem C32_mask_adjoint_pair : forall L m, map_mask L m ->
  adjoint_pair (mask_forward L m [L; (2 * L - 1)%nat]) (mask_adjoint (RtoC 0) L m)
    (L * (2 * L - 1)) (length (set_positions (b_bits m))).
Proof.
  intros L m M. assert (M' := M). destruct M' as (Sh & LB). split; [|split].
  - intros x H. rewrite mask_forward_value by auto. eexists; split; [reflexivity|]. rewrite set_positions_count. apply select_length. congruence.
  - intros y H. destruct (C32_mask_adjoint _ (RtoC 0) L m y M H) as (f & E & LF & _). eauto.
  - intros x y fx gy Hx Hy Ex Ey. rewrite mask_forward_value in Ex by auto. injection Ex as <-.
    unfold mask_adjoint, bool_assign in Ey. simpl is_not_itself in Ey. cbv iota in Ey. rewrite set_positions_count in Hy.
    rewrite Hy, Nat.eqb_refl in Ey. apply Ok_inj in Ey. subst gy. rewrite <- Hx. apply select_scatter_adjoint; congruence.
Qed.
Print Assumptions C32_mask_adjoint_pair.

(** wrong number of observations *)
Theorem C32_mask_adjoint_size : forall A (zero : A) L m x, length x <> length (set_positions (b_bits m)) -> length x <> 1%nat ->
  mask_adjoint zero L m x = Raise ValueError.
Proof.
  intros A zero L m x N N1. rewrite set_positions_count in N. unfold mask_adjoint, bool_assign. simpl is_not_itself. cbv iota.
  rewrite (proj2 (Nat.eqb_neq _ _) N). destruct x as [|a [|b x]]; try reflexivity. simpl in N1. lia.
Qed.
Print Assumptions C32_mask_adjoint_size.

(** a single value is broadcast to all unmasked pixels *)
Theorem C32_mask_adjoint_single : forall A (zero v : A) L m, map_mask L m ->
  exists f, mask_adjoint zero L m [v] = Ok f /\ length f = (L * (2 * L - 1))%nat /\
    forall p, (p < length f)%nat -> nth p f zero = if nth p (b_bits m) false then v else zero.
Proof.
  intros A zero v L m (Sh & LB).
  assert (Q : forall bits k l, length bits = length l -> (forall p, nth p l zero = zero) -> (count_true bits <= k)%nat ->
    forall p, nth p (scatter zero bits l (repeat v k)) zero = if nth p bits false then v else zero).
  { induction bits as [|b bits IH]; intros k [|a l] Hl Hz Hk p; simpl in Hl; try lia.
    - destruct p; reflexivity.
    - assert (Hz' : forall p, nth p l zero = zero) by (intros q; apply (Hz (S q))). destruct b.
      + destruct k; [unfold count_true in Hk; simpl in Hk; lia|]. destruct p; [reflexivity|]. simpl. apply IH; auto. unfold count_true in *. simpl in Hk. lia.
      + destruct p; [apply (Hz 0%nat)|]. simpl. apply IH; auto. }
  assert (RZ : forall n p, nth p (repeat zero n) zero = zero).
  { intros n p. revert p. induction n; intros [|p]; simpl; auto. }
  exists (scatter zero (b_bits m) (repeat zero (L * (2 * L - 1))) (repeat v (count_true (b_bits m)))). split; [|split].
  - unfold mask_adjoint, bool_assign. simpl is_not_itself. cbv iota. cbn [length].
    destruct (Nat.eqb_spec 1 (count_true (b_bits m))); [rewrite <- e; reflexivity|reflexivity].
  - rewrite scatter_length, repeat_length. reflexivity.
  - intros p _. apply Q; auto. rewrite repeat_length. auto.
Qed.
Print Assumptions C32_mask_adjoint_single.

(** ** construction *)

Definition full_mask (L : nat) : bmask := mkMask [L; (2 * L - 1)%nat] (repeat true (L * (2 * L - 1))).
Definition the_mask (L : nat) (mask : option bmask) : bmask := match mask with None => full_mask L | Some m => m end.

(** inv_cov: ones, or sqrt(2 ngal / 0.37^2), at the unmasked pixels *)
Theorem C32_construction : forall n mask ngal, (1 <= n)%nat ->
  map_mask n (the_mask n mask) -> (forall s g, ngal = Some (s, g) -> s = [n; (2 * n - 1)%nat] /\ length g = (n * (2 * n - 1))%nat) ->
  exists w, WL_init (Z.of_nat n) mask ngal = Ok w /\ w_L w = n /\ w_mask w = the_mask n mask /\
    WLH_init (Z.of_nat n) = Ok (w_base w) /\
    w_invcov w = map (fun p => match ngal with None => 1 | Some g => sqrt (2 * nth p (snd g) 0 / (37 / 100) ^ 2) end)
                     (set_positions (b_bits (the_mask n mask))).
Proof.
  intros n mask ngal Hn M HG. unfold WL_init. rewrite Nat2Z.id.
  destruct (C31_construction (Z.of_nat n)) as (_ & C). destruct (C ltac:(lia)) as (b & Eb & _). rewrite Eb. cbn [rbind].
  change (match mask with Some m => m | None => mkMask [n; (2 * n - 1)%nat] (repeat true (n * (2 * n - 1))) end) with (the_mask n mask).
  assert (M' := M). destruct M' as (Sh & LB). destruct ngal as [[s g]|].
  - destruct (HG s g eq_refl) as (-> & LG). cbn [fst snd]. unfold ngal_to_inv_cov.
    rewrite (C32_mask_forward R 0 n _ g M LG). cbn [rbind]. rewrite Sh, shape_eqb_refl. eexists. split; [reflexivity|].
    repeat match goal with |- _ /\ _ => split end; auto. simpl w_invcov. rewrite map_map. reflexivity.
  - assert (LG : length (repeat 1 (n * (2 * n - 1))) = (n * (2 * n - 1))%nat) by apply repeat_length.
    rewrite (C32_mask_forward R 0 n _ _ M LG). cbn [rbind]. rewrite Sh, shape_eqb_refl. eexists. split; [reflexivity|].
    repeat match goal with |- _ /\ _ => split end; auto. simpl w_invcov. apply map_ext_in. intros p Hp.
    unfold set_positions in Hp. apply filter_In in Hp. destruct Hp as (Hp & _). apply in_seq in Hp. apply nth_repeat_in. lia.
Qed.
Print Assumptions C32_construction.

(** errors: band limit, galaxy map, then mask *)
Theorem C32_construction_errors :
  (forall L mask ngal, (L < 1)%Z -> WL_init L mask ngal = Raise ValueError) /\
  (forall n mask s g, (1 <= n)%nat -> s <> [n; (2 * n - 1)%nat] -> WL_init (Z.of_nat n) mask (Some (s, g)) = Raise ValueError) /\
  (forall n m ngal, (1 <= n)%nat -> (forall s g, ngal = Some (s, g) -> s = [n; (2 * n - 1)%nat]) ->
     WL_init (Z.of_nat n) (Some m) ngal =
     match b_shape m with
     | [] => Raise ValueError
     | [k] => if Nat.eqb k n then Raise ValueError else Raise IndexError
     | [k; l] => if Nat.eqb k n && Nat.eqb l (2 * n - 1) then WL_init (Z.of_nat n) (Some m) ngal else Raise IndexError
     | _ => Raise IndexError
     end).
Proof.
  split; [|split].
  - intros L mask ngal H. unfold WL_init. destruct (C31_construction L) as (C & _). rewrite C by auto. reflexivity.
  - intros n mask s g Hn N. unfold WL_init. rewrite Nat2Z.id.
    destruct (C31_construction (Z.of_nat n)) as (_ & C). destruct (C ltac:(lia)) as (b & Eb & _). rewrite Eb. cbn [rbind fst snd].
    unfold ngal_to_inv_cov. rewrite C32_mask_forward_shape by auto. reflexivity.
  - intros n m ngal Hn HG.
    assert (Q : forall e, (forall A (f : list A), mask_forward n m [n; (2 * n - 1)%nat] f = Raise e) -> WL_init (Z.of_nat n) (Some m) ngal = Raise e).
    { intros e He. unfold WL_init. rewrite Nat2Z.id.
      destruct (C31_construction (Z.of_nat n)) as (_ & C). destruct (C ltac:(lia)) as (b & Eb & _). rewrite Eb. cbn [rbind].
      destruct ngal as [[s g]|]; [|rewrite He; reflexivity]. rewrite (HG s g eq_refl). cbn [fst snd]. unfold ngal_to_inv_cov. rewrite He. reflexivity. }
    assert (S2 : (forall A (f : list A), exists y, mask_forward n m [n; (2 * n - 1)%nat] f = Ok y) -> b_shape m <> [n; (2 * n - 1)%nat] ->
      WL_init (Z.of_nat n) (Some m) ngal = Raise ValueError).
    { intros He N. unfold WL_init. rewrite Nat2Z.id.
      destruct (C31_construction (Z.of_nat n)) as (_ & C). destruct (C ltac:(lia)) as (b & Eb & _). rewrite Eb. cbn [rbind].
      assert (SN : shape_eqb (b_shape m) [n; (2 * n - 1)%nat] = false) by (unfold shape_eqb; destruct (list_eq_dec _ _ _); [contradiction|reflexivity]).
      destruct ngal as [[s g]|].
      - rewrite (HG s g eq_refl). cbn [fst snd]. unfold ngal_to_inv_cov. destruct (He R g) as (y & ->). cbn [rbind]. rewrite SN. reflexivity.
      - destruct (He R (repeat 1 (n * (2 * n - 1)))) as (y & ->). cbn [rbind]. rewrite SN. reflexivity. }
    destruct m as [sh bits]. cbn [b_shape] in *.
    assert (MF : forall A (f : list A), mask_forward n (mkMask sh bits) [n; (2 * n - 1)%nat] f = bool_index n (2 * n - 1) f (mkMask sh bits)).
    { intros A f. unfold mask_forward. rewrite shape_eqb_refl. reflexivity. }
    destruct sh as [|k [|l [|]]].
    + apply S2; [|discriminate]. intros A f. rewrite MF. eexists; reflexivity.
    + destruct (Nat.eqb k n) eqn:Ek.
      * apply S2; [|discriminate]. intros A f. rewrite MF. unfold bool_index. cbn [b_shape]. rewrite Ek. eexists; reflexivity.
      * apply Q. intros A f. rewrite MF. unfold bool_index. cbn [b_shape]. rewrite Ek. reflexivity.
    + destruct (Nat.eqb k n && Nat.eqb l (2 * n - 1)) eqn:Ek; [reflexivity|].
      apply Q. intros A f. rewrite MF. unfold bool_index. cbn [b_shape]. rewrite Ek. reflexivity.
    + apply Q. intros A f. rewrite MF. reflexivity.
Qed.
Print Assumptions C32_construction_errors.

(** documented: "ValueError: Raised if mask is the wrong shape" *)
Theorem C32_mask_shape_error_refuted : exists n m, b_shape m <> [n; (2 * n - 1)%nat] /\
  length (b_bits m) = fold_right Nat.mul 1%nat (b_shape m) /\ WL_init (Z.of_nat n) (Some m) None = Raise IndexError.
Proof.
  exists 2%nat, (mkMask [2%nat; 2%nat] [true; true; true; true]). split; [discriminate|]. split; [reflexivity|].
  destruct C32_construction_errors as (_ & _ & H). rewrite (H 2%nat) by (auto; discriminate). reflexivity.
Qed.
Print Assumptions C32_mask_shape_error_refuted.

(** documented: "ValueError: Raised if signal is nan".  Elements are numbers or
    NaN (None). *)
Theorem C32_nan_rejected_refuted : exists L m (f : list (option R)), map_mask L m /\ length f = (L * (2 * L - 1))%nat /\
  (forall a, In a f -> a = None) /\
  (exists y, mask_forward L m [L; (2 * L - 1)%nat] f = Ok y /\ In None y) /\
  (exists y, mask_adjoint (Some 0) L m f = Ok y /\ In None y).
Proof.
  exists 1%nat, (full_mask 1), [None]. split; [split; reflexivity|]. split; [reflexivity|]. split; [intros a [<-|[]]; auto|].
  split; eexists; split; try reflexivity; left; reflexivity.
Qed.
Print Assumptions C32_nan_rejected_refuted.

(** ** forward and adjoint *)

Theorem C32_forward : forall S n mask ngal w kappa klm shear, WL_init (Z.of_nat n) mask ngal = Ok w -> (1 <= n)%nat ->
  map_mask n (the_mask n mask) -> (forall s g, ngal = Some (s, g) -> s = [n; (2 * n - 1)%nat] /\ length g = (n * (2 * n - 1))%nat) ->
  length kappa = (n * (2 * n - 1))%nat -> ss_forward S n 0 kappa = Ok klm ->
  (let* glm := WLH_forward (w_base w) klm in ss_inverse S n 2 glm) = Ok shear -> length shear = (n * (2 * n - 1))%nat ->
  WL_forward S w kappa =
  Ok (map (fun p => RtoC (match ngal with None => 1 | Some g => sqrt (2 * nth p (snd g) 0 / (37 / 100) ^ 2) end) * nth p shear (RtoC 0))%C
          (set_positions (b_bits (the_mask n mask)))).
Proof.
  intros S n mask ngal w kappa klm shear E Hn M HG LK EK ES LS.
  destruct (C32_construction n mask ngal Hn M HG) as (w' & E' & EL & EM & EB & EI). rewrite E in E'. injection E' as <-.
  unfold WL_forward. rewrite EL, LK, Nat.eqb_refl, EK. cbn [rbind].
  destruct (WLH_forward (w_base w) klm) as [glm|]; cbn [rbind] in *; [|discriminate]. rewrite ES. cbn [rbind]. rewrite EM.
  rewrite (C32_mask_forward C (RtoC 0) n _ shear M LS). cbn [rbind]. unfold cov_weight. rewrite EI. unfold np_mul.
  rewrite np_bin_eq by (rewrite !map_length; reflexivity). f_equal. rewrite map_map.
  generalize (set_positions (b_bits (the_mask n mask))). intros l. induction l as [|a l IH]; [reflexivity|]. cbn [map map2]. f_equal; [apply Cmult_comm|exact IH].
Qed.
Print Assumptions C32_forward.

Theorem C32_adjoint : forall S n mask ngal w, WL_init (Z.of_nat n) mask ngal = Ok w -> (1 <= n)%nat ->
  map_mask n (the_mask n mask) -> (forall s g, ngal = Some (s, g) -> s = [n; (2 * n - 1)%nat] /\ length g = (n * (2 * n - 1))%nat) ->
  adjoint_pair (ss_forward S n 0) (ss_forward_adjoint S n 0) (n * (2 * n - 1)) (n * n) ->
  adjoint_pair (ss_inverse S n 2) (ss_inverse_adjoint S n 2) (n * n) (n * (2 * n - 1)) ->
  adjoint_pair (WL_forward S w) (WL_adjoint S w) (n * (2 * n - 1)) (length (set_positions (b_bits (the_mask n mask)))).
Proof.
  intros S n mask ngal w E Hn M HG A0 A2.
  destruct (C32_construction n mask ngal Hn M HG) as (w' & E' & EL & EM & EB & EI). rewrite E in E'. injection E' as <-.
  destruct (C31_self_adjoint _ _ EB) as (AH & _). replace (Z.to_nat (Z.of_nat n * Z.of_nat n)) with (n * n)%nat in AH by nia.
  assert (AM := C32_mask_adjoint_pair n _ M).
  assert (AW : adjoint_pair (cov_weight w) (cov_weight w) (length (set_positions (b_bits (the_mask n mask)))) (length (set_positions (b_bits (the_mask n mask))))).
  { assert (LI : length (w_invcov w) = length (set_positions (b_bits (the_mask n mask)))) by (rewrite EI, map_length; reflexivity).
    rewrite <- LI. apply (adjoint_pair_ext _ _ _ _ _ _ (rdiag_adjoint (w_invcov w))).
    - intros x H. unfold cov_weight, np_mul. rewrite np_bin_eq by (rewrite map_length; auto). f_equal. clear -H. revert x H. unfold rdiag.
      induction (w_invcov w) as [|r e IH]; intros [|a x] H; simpl in H; try lia; [reflexivity|]. simpl. rewrite IH by lia. f_equal. ring.
    - intros x H. unfold cov_weight, np_mul. rewrite np_bin_eq by (rewrite map_length; auto). f_equal. clear -H. revert x H. unfold rdiag.
      induction (w_invcov w) as [|r e IH]; intros [|a x] H; simpl in H; try lia; [reflexivity|]. simpl. rewrite IH by lia. f_equal. ring. }
  assert (A := adjoint_compose _ _ _ _ _ _ _ (adjoint_compose _ _ _ _ _ _ _ (adjoint_compose _ _ _ _ _ _ _ (adjoint_compose _ _ _ _ _ _ _ A0 AH) A2) AM) AW).
  apply (adjoint_pair_ext _ _ _ _ _ _ A).
  - intros x Hx. unfold WL_forward. rewrite EL, Hx, Nat.eqb_refl, EM.
    destruct (ss_forward S n 0 x) as [a|]; cbn [rbind]; [|reflexivity]. destruct (WLH_forward (w_base w) a) as [b|]; cbn [rbind]; [|reflexivity].
    destruct (ss_inverse S n 2 b) as [c|]; cbn [rbind]; reflexivity.
  - intros y Hy. unfold WL_adjoint. rewrite EL, EM. reflexivity.
Qed.
Print Assumptions C32_adjoint.

(** wrong number of pixels *)
Theorem C32_forward_size : forall S w kappa, length kappa <> (w_L w * (2 * w_L w - 1))%nat -> WL_forward S w kappa = Raise ValueError.
Proof. intros S w kappa N. unfold WL_forward. rewrite (proj2 (Nat.eqb_neq _ _) N). reflexivity. Qed.
Print Assumptions C32_forward_size.

Example C32_case : let m := mkMask [2%nat; 3%nat] [true; false; false; true; true; false] in
  mask_forward 2 m [2%nat; 3%nat] [10; 11; 12; 13; 14; 15]%nat = Ok [10; 13; 14]%nat /\
  mask_adjoint 0%nat 2 m [7; 8; 9]%nat = Ok [7; 0; 0; 8; 9; 0]%nat.
Proof. split; reflexivity. Qed.
