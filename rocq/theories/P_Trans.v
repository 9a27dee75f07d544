(** C33: the wavelet transform wrapper; C45: the two shipped forward operators. *)
From Coq Require Import List ZArith Lia Bool Reals Lra Psatz String.
From Coquelicot Require Import Coquelicot.
From Verif Require Import PyBase PyBaseFacts CVec Utils UtilsSpec UtilsProof P_Utils OpSpec Measure MeasSpec MeasProof P_Meas Prior
  Forward Sampler Mcmc McmcSpec FwdProof P_Forward Transforms TransSpec.
Import ListNotations.
Open Scope R_scope.
Notation length := List.length.

(** ** C33 *)

Definition wparams (L : nat) (B : R) (J_min dirs spin : Z) : s2params := mkS2P B L J_min dirs spin 0.

(** Construction: the counts are those of the pixel-space analysis, whatever
    np.empty holds, in both modes. *)
Theorem C33_construction : forall lib junk L B J_min dirs spin harmonic,
  let p := wparams L B J_min dirs spin in
  (forall a b, pair_maps (analysis_px2wav lib p) (L * (2 * L - 1)) a b ->
     exists t, SWT_init lib junk L B J_min dirs spin harmonic = Ok t /\
       sw_nwav t = a /\ sw_nscal t = b /\ sw_ncoefs t = (a + b)%nat /\ sw_params t = p /\
       sw_J_max t = sl_jmax lib B L J_min /\ sw_nscales t = (sl_jmax lib B L J_min - J_min + 1)%Z) /\
  (forall e, (forall x, length x = (L * (2 * L - 1))%nat -> analysis_px2wav lib p x = Raise e) ->
     SWT_init lib junk L B J_min dirs spin harmonic = Raise e).
Proof.
  intros lib junk L B J_min dirs spin harmonic p.
  assert (LJ : length (map junk (seq 0 (sample_length L))) = (L * (2 * L - 1))%nat) by (rewrite map_length, seq_length; reflexivity).
  unfold SWT_init, get_ncoefs. cbn [q_L]. split.
  - intros a b H. destruct (H _ LJ) as (w & s & E & La & Lb). unfold p, wparams in E. rewrite E. cbn [rbind fst snd].
    eexists; split; [reflexivity|]. destruct harmonic; cbn; rewrite La, Lb; auto 10.
  - intros e H. specialize (H _ LJ). unfold p, wparams in H. rewrite H. reflexivity.
Qed.
Print Assumptions C33_construction.

Lemma swt_fields : forall lib junk L B J_min dirs spin harmonic t a b, 
  pair_maps (analysis_px2wav lib (wparams L B J_min dirs spin)) (L * (2 * L - 1)) a b ->
  SWT_init lib junk L B J_min dirs spin harmonic = Ok t ->
  sw_params t = wparams L B J_min dirs spin /\ sw_nscal t = b /\ sw_ncoefs t = (a + b)%nat /\
  sw_fwd t = (if harmonic then analysis_lm2lmn lib else analysis_px2wav lib) /\
  sw_fwd_adj t = (if harmonic then analysis_adjoint_lmn2lm lib else analysis_adjoint_wav2px lib) /\
  sw_inv t = (if harmonic then synthesis_lmn2lm lib else synthesis_wav2px lib) /\
  sw_inv_adj t = (if harmonic then synthesis_adjoint_lm2lmn lib else synthesis_adjoint_px2wav lib).
Proof.
  intros lib junk L B J_min dirs spin harmonic t a b PM E. destruct (C33_construction lib junk L B J_min dirs spin harmonic) as (C & _).
  destruct (C a b PM) as (t' & E' & _ & F2 & F3 & F4 & _). rewrite E in E'. injection E' as <-.
  split; [exact F4|]. split; [exact F2|]. split; [exact F3|].
  unfold SWT_init in E. destruct (get_ncoefs _ _ _) as [[[? ?] ?]|]; cbn [rbind] in E; [|discriminate]. injection E as <-. destruct harmonic; cbn; auto.
Qed.

Lemma cdot_app : forall a b c d, length a = length b -> cdot (a ++ c) (b ++ d) = (cdot a b + cdot c d)%C.
Proof.
  induction a as [|x a IH]; intros [|y b] c d H; simpl in H; try lia.
  - cbn [app]. unfold cdot at 2. simpl. ring.
  - assert (I := IH b c d ltac:(lia)). unfold cdot in *. cbn [app map2]. unfold csum in *. cbn [fold_right]. rewrite I. ring.
Qed.

Lemma expand_split : forall m k, expand_mlm m None (Some (Z.of_nat k)) false =
  Ok (Arr1 (skipn (Nat.min k (length m)) m), firstn (Nat.min k (length m)) m).
Proof.
  intros m k. destruct (C19_expand_nscalcoefs m (Z.of_nat k) false) as (E & _). rewrite E.
  destruct (Z.ltb_spec (Z.of_nat k) 0); [lia|].
  replace (Z.to_nat (Z.min (Z.of_nat k) (Z.of_nat (length m)))) with (Nat.min k (length m)) by lia. reflexivity.
Qed.

Section Flat.
Variables (f : s2params -> vec -> res (vec * vec)) (g : s2params -> vec -> vec -> res vec) (p : s2params) (n a b : nat).
Definition flat_of (x : vec) : res vec := let* ws := f p x in Ok (flatten_mlm (Arr1 (fst ws)) (snd ws)).
Definition unflat_of (x : vec) : res vec :=
  let* ws := expand_mlm x None (Some (Z.of_nat b)) false in g p (as_1d (fst ws)) (snd ws).
Lemma unflat_value : forall x, length x = (a + b)%nat -> unflat_of x = g p (skipn b x) (firstn b x).
Proof.
  intros x H. unfold unflat_of, expand_mlm. rewrite py_slice_to, py_slice_from by lia. reflexivity.
Qed.
Lemma flat_adjoint : pair_adjoint (f p) (g p) n a b -> adjoint_pair flat_of unflat_of n (a + b).
Proof.
  intros (F & G & A). split; [|split].
  - intros x H. destruct (F x H) as (w & s & E & La & Lb). unfold flat_of. rewrite E. cbn [rbind fst snd]. eexists; split; [reflexivity|].
    unfold flatten_mlm. cbn [ravel_F]. rewrite app_length. lia.
  - intros y H. rewrite unflat_value by auto. apply G; [rewrite skipn_length|rewrite firstn_length]; lia.
  - intros x y fx gy Hx Hy Ex Ey. rewrite unflat_value in Ey by auto. destruct (F x Hx) as (w & s & E & La & Lb).
    unfold flat_of in Ex. rewrite E in Ex. cbn [rbind fst snd] in Ex. injection Ex as <-. unfold flatten_mlm. cbn [ravel_F].
    rewrite <- (firstn_skipn b y) at 1. rewrite cdot_app by (rewrite firstn_length; lia). rewrite Cplus_comm.
    apply (A x (skipn b y) (firstn b y)); auto; [rewrite skipn_length|rewrite firstn_length]; lia.
Qed.
Lemma flat_inverse : pair_maps (f p) n a b -> pair_inverse (f p) (g p) n ->
  forall x, length x = n -> exists y, flat_of x = Ok y /\ length y = (a + b)%nat /\ unflat_of y = Ok x.
Proof.
  intros F I x H. destruct (F x H) as (w & s & E & La & Lb). unfold flat_of. rewrite E. cbn [rbind fst snd]. eexists; split; [reflexivity|].
  unfold flatten_mlm. cbn [ravel_F]. assert (LL : length (s ++ w) = (a + b)%nat) by (rewrite app_length; lia). split; [exact LL|].
  rewrite unflat_value by auto. rewrite <- Lb, firstn_app, skipn_app, Nat.sub_diag, skipn_all, firstn_all. cbn [firstn skipn app].
  rewrite app_nil_r. apply I; auto.
Qed.
End Flat.

(** inverse(forward(x)) = x *)
Theorem C33_roundtrip : forall lib junk L B J_min dirs spin t a b,
  let p := wparams L B J_min dirs spin in let n := (L * (2 * L - 1))%nat in
  pair_maps (analysis_px2wav lib p) n a b -> pair_inverse (analysis_px2wav lib p) (synthesis_wav2px lib p) n ->
  SWT_init lib junk L B J_min dirs spin false = Ok t ->
  forall x, length x = n -> exists y, SWT_forward t x = Ok y /\ length y = sw_ncoefs t /\ SWT_inverse t y = Ok x.
Proof.
  intros lib junk L B J_min dirs spin t a b p n PM PI E x Hx.
  destruct (swt_fields _ _ _ _ _ _ _ _ _ a b PM E) as (E1 & E2 & E3 & E4 & E5 & E6 & E7).
  unfold SWT_forward, SWT_inverse. rewrite E1, E2, E3, E4, E6.
  exact (flat_inverse (analysis_px2wav lib) (synthesis_wav2px lib) p n a b PM PI x Hx).
Qed.
Print Assumptions C33_roundtrip.

(** forward after inverse is a projection: applying the pair twice changes
    nothing more (the transform is redundant, so it need not be the identity) *)
Theorem C33_projection : forall lib junk L B J_min dirs spin t a b,
  let p := wparams L B J_min dirs spin in let n := (L * (2 * L - 1))%nat in
  pair_maps (analysis_px2wav lib p) n a b -> unpair_maps (synthesis_wav2px lib p) n a b ->
  pair_inverse (analysis_px2wav lib p) (synthesis_wav2px lib p) n ->
  SWT_init lib junk L B J_min dirs spin false = Ok t ->
  forall c, length c = sw_ncoefs t -> exists x c', SWT_inverse t c = Ok x /\ length x = n /\ SWT_forward t x = Ok c' /\
    length c' = sw_ncoefs t /\ SWT_inverse t c' = Ok x.
Proof.
  intros lib junk L B J_min dirs spin t a b p n PM UM PI E c Hc.
  assert (RT := C33_roundtrip lib junk L B J_min dirs spin t a b PM PI E).
  destruct (swt_fields _ _ _ _ _ _ _ _ _ a b PM E) as (E1 & E2 & E3 & E4 & E5 & E6 & E7).
  assert (X : exists x, SWT_inverse t c = Ok x /\ length x = n).
  { unfold SWT_inverse. rewrite E1, E2, E6.
    assert (V := unflat_value (synthesis_wav2px lib) p a b c ltac:(congruence)). unfold unflat_of in V. fold p. rewrite V.
    rewrite E3 in Hc. apply UM; [rewrite skipn_length|rewrite firstn_length]; lia. }
  destruct X as (x & Ex & Lx). destruct (RT x Lx) as (y & Ey & Ly & Iy). exists x, y. auto.
Qed.
Print Assumptions C33_projection.

(** the two adjoint pairs on flat vectors *)
Theorem C33_adjoints : forall lib junk L B J_min dirs spin t a b,
  let p := wparams L B J_min dirs spin in let n := (L * (2 * L - 1))%nat in
  pair_maps (analysis_px2wav lib p) n a b -> SWT_init lib junk L B J_min dirs spin false = Ok t ->
  (pair_adjoint (analysis_px2wav lib p) (analysis_adjoint_wav2px lib p) n a b ->
     adjoint_pair (SWT_forward t) (SWT_forward_adjoint t) n (sw_ncoefs t)) /\
  (pair_adjoint (synthesis_adjoint_px2wav lib p) (synthesis_wav2px lib p) n a b ->
     adjoint_pair (SWT_inverse t) (SWT_inverse_adjoint t) (sw_ncoefs t) n).
Proof.
  intros lib junk L B J_min dirs spin t a b p n PM E.
  destruct (swt_fields _ _ _ _ _ _ _ _ _ a b PM E) as (E1 & E2 & E3 & E4 & E5 & E6 & E7).
  unfold SWT_forward, SWT_forward_adjoint, SWT_inverse, SWT_inverse_adjoint. rewrite E1, E2, E3, E4, E5, E6, E7. split; intros H.
  - exact (flat_adjoint (analysis_px2wav lib) (analysis_adjoint_wav2px lib) p n a b H).
  - apply adjoint_swap. exact (flat_adjoint (synthesis_adjoint_px2wav lib) (synthesis_wav2px lib) p n a b H).
Qed.
Print Assumptions C33_adjoints.

(** Harmonic mode.  With scaling band limit b0 the scaling part has b0(2b0-1)
    samples in pixel space and b0^2 coefficients in harmonic space; the
    synthesis is then called with the wrong split, whatever the input, unless
    b0 = 1. *)
Theorem C33_harmonic_split : forall lib junk L B J_min dirs spin t a a' b0,
  let p := wparams L B J_min dirs spin in
  pair_maps (analysis_px2wav lib p) (L * (2 * L - 1)) a (b0 * (2 * b0 - 1)) ->
  pair_maps (analysis_lm2lmn lib p) (L * L) a' (b0 * b0) -> (1 <= a')%nat -> (1 <= b0)%nat ->
  SWT_init lib junk L B J_min dirs spin true = Ok t ->
  forall x, length x = (L * L)%nat -> exists w s y, analysis_lm2lmn lib p x = Ok (w, s) /\ SWT_forward t x = Ok y /\
    (b0 = 1%nat -> SWT_inverse t y = synthesis_lmn2lm lib p w s) /\
    (b0 <> 1%nat -> exists w' s', SWT_inverse t y = synthesis_lmn2lm lib p w' s' /\
       (length s' > b0 * b0)%nat /\ (length w' < a')%nat).
Proof.
  intros lib junk L B J_min dirs spin t a a' b0 p PM HM Ha Hb E x Hx.
  destruct (swt_fields _ _ _ _ _ _ _ _ _ a _ PM E) as (E1 & E2 & E3 & E4 & E5 & E6 & E7).
  destruct (HM x Hx) as (w & s & Ex & Lw & Ls). exists w, s, (s ++ w). split; [exact Ex|].
  split; [unfold SWT_forward; rewrite E1, E4; fold p; rewrite Ex; reflexivity|].
  unfold SWT_inverse. rewrite E1, E2, E6, expand_split. cbn [rbind fst snd as_1d]. fold p.
  set (k := Nat.min (b0 * (2 * b0 - 1)) (length (s ++ w))). split.
  - intros Eb. assert (K : k = length s) by (unfold k; rewrite app_length, Ls, Eb; lia). rewrite K.
    rewrite skipn_app, skipn_all, Nat.sub_diag, firstn_app, firstn_all, Nat.sub_diag. cbn [firstn skipn app]. rewrite app_nil_r. reflexivity.
  - intros N. assert (K : (b0 * b0 < k)%nat) by (unfold k; rewrite app_length; nia).
    exists (skipn k (s ++ w)), (firstn k (s ++ w)). split; [reflexivity|]. rewrite firstn_length, skipn_length.
    assert (k <= length (s ++ w))%nat by (unfold k; lia). rewrite app_length in *. lia.
Qed.
Print Assumptions C33_harmonic_split.

(** hence the round trip fails in harmonic mode even for an exact library:
    L = 3, b0 = 2 and one wavelet coefficient per missing sample; the synthesis
    rejects pairs of the wrong sizes *)
Definition split_lib (k : nat) (x : vec) : res (vec * vec) := Ok (skipn k x, firstn k x).
Definition join_lib (a b : nat) (w s : vec) : res vec :=
  if Nat.eqb (length w) a && Nat.eqb (length s) b then Ok (s ++ w) else Raise ValueError.
Definition toy_lib : s2let :=
  mkS2let (fun _ _ _ => 0%Z)
    (fun _ => split_lib 6) (fun _ => join_lib 9 6) (fun _ => join_lib 9 6) (fun _ => split_lib 6)
    (fun _ => split_lib 4) (fun _ => join_lib 5 4) (fun _ => join_lib 5 4) (fun _ => split_lib 4).

Lemma split_join : forall k a x, length x = (a + k)%nat -> join_lib a k (skipn k x) (firstn k x) = Ok x.
Proof.
  intros k a x H. unfold join_lib. rewrite skipn_length, firstn_length, H.
  replace (a + k - k)%nat with a by lia. replace (Nat.min k (a + k)) with k by lia. rewrite !Nat.eqb_refl. cbn [andb].
  rewrite firstn_skipn. reflexivity.
Qed.

Lemma toy_pair : forall k a, pair_adjoint (split_lib k) (join_lib a k) (a + k) a k /\ pair_inverse (split_lib k) (join_lib a k) (a + k).
Proof.
  intros k a. split; [split; [|split]|].
  - intros x H. exists (skipn k x), (firstn k x). split; [reflexivity|]. rewrite skipn_length, firstn_length. lia.
  - intros w s Hw Hs. exists (s ++ w). unfold join_lib. rewrite Hw, Hs, !Nat.eqb_refl. split; [reflexivity|]. rewrite app_length; lia.
  - intros x w s fw fs gx Hx Hw Hs E1 E2. unfold split_lib in E1. injection E1 as <- <-. unfold join_lib in E2.
    rewrite Hw, Hs, !Nat.eqb_refl in E2. cbn [andb] in E2. injection E2 as <-. rewrite <- (firstn_skipn k x) at 3.
    rewrite cdot_app by (rewrite firstn_length; lia). ring.
  - intros x w s H E. unfold split_lib in E. injection E as <- <-. apply split_join; auto.
Qed.

Theorem C33_harmonic_roundtrip_refuted : exists lib junk L B J_min dirs spin t x y,
  let p := wparams L B J_min dirs spin in
  pair_maps (analysis_px2wav lib p) (L * (2 * L - 1)) 9 (2 * (2 * 2 - 1)) /\
  pair_maps (analysis_lm2lmn lib p) (L * L) 5 (2 * 2) /\
  pair_inverse (analysis_lm2lmn lib p) (synthesis_lmn2lm lib p) (L * L) /\
  SWT_init lib junk L B J_min dirs spin true = Ok t /\ length x = (L * L)%nat /\
  SWT_forward t x = Ok y /\ SWT_inverse t y = Raise ValueError /\ length y <> sw_ncoefs t.
Proof.
  exists toy_lib, (fun _ => RtoC 0), 3%nat, 2, 0%Z, 1%Z, 0%Z.
  eexists. exists (repeat (RtoC 1) 9), (repeat (RtoC 1) 9). intros p.
  assert (A := proj1 (proj1 (toy_pair 6 9))). assert (B := proj1 (proj1 (toy_pair 4 5))). assert (D := proj2 (toy_pair 4 5)).
  split; [exact A|]. split; [exact B|]. split; [exact D|]. split; [reflexivity|].
  split; [reflexivity|]. split; [reflexivity|]. split; [reflexivity|]. simpl. lia.
Qed.
Print Assumptions C33_harmonic_roundtrip_refuted.

(** the pixel mode of the same library: both adjoint pairs and the round trip *)
Example C33_case : exists t, SWT_init toy_lib (fun _ => RtoC 0) 3 2 0 1 0 false = Ok t /\ sw_ncoefs t = 15%nat /\
  adjoint_pair (SWT_forward t) (SWT_forward_adjoint t) 15 15 /\ adjoint_pair (SWT_inverse t) (SWT_inverse_adjoint t) 15 15 /\
  forall x, length x = 15%nat -> exists y, SWT_forward t x = Ok y /\ SWT_inverse t y = Ok x.
Proof.
  destruct (C33_construction toy_lib (fun _ => RtoC 0) 3 2 0 1 0 false) as (C & _).
  assert (PM : pair_maps (analysis_px2wav toy_lib (wparams 3 2 0 1 0)) (3 * (2 * 3 - 1)) 9 6) by exact (proj1 (proj1 (toy_pair 6 9))).
  destruct (C 9%nat 6%nat PM) as (t & E & _ & _ & N & _). exists t. split; [exact E|]. split; [exact N|].
  destruct (C33_adjoints toy_lib _ 3 2 0 1 0 t 9 6 PM E) as (A1 & A2). rewrite N in A1, A2.
  split; [exact (A1 (proj1 (toy_pair 6 9)))|]. split; [exact (A2 (proj1 (toy_pair 6 9)))|].
  intros x Hx. destruct (C33_roundtrip toy_lib _ 3 2 0 1 0 t 9 6 PM (proj2 (toy_pair 6 9)) E x Hx) as (y & E1 & _ & E2). eauto.
Qed.

(** the identity transform *)
Theorem C33_identity_transform : forall X, IdT_forward X = Ok X /\ IdT_inverse X = Ok X /\
  IdT_forward_adjoint X = Ok X /\ IdT_inverse_adjoint X = Ok X.
Proof. intros; repeat split. Qed.
Print Assumptions C33_identity_transform.

(** ** C45 *)

(** which wavelet library: synthesis and its adjoint are an adjoint pair on
    coefficient pairs of the sizes analysis produces *)
Definition good_library (lib : s2let) (p : s2params) (n a b : nat) : Prop :=
  pair_maps (analysis_px2wav lib p) n a b /\
  pair_adjoint (synthesis_adjoint_px2wav lib p) (synthesis_wav2px lib p) n a b.

(** construction of both operators succeeds exactly when the covariance can be
    built and the setting is known; nparams is the number of image samples or of
    coefficients *)
Theorem C45_construction : forall lib junk inv P d s setting L B J_min dirs spin a b,
  let p := wparams L B J_min dirs spin in let n := (L * (2 * L - 1))%nat in
  good_library lib p n a b ->
  ((exists f, SWTO_init lib junk inv d s setting L B J_min dirs spin = Ok f) <->
   (setting = "analysis"%string \/ setting = "synthesis"%string) /\ exists W, build_invcov inv d s = Ok W) /\
  ((exists f, PIO_init lib junk inv P d s setting L B J_min dirs spin = Ok f) <->
   (setting = "analysis"%string \/ setting = "synthesis"%string) /\ exists W, build_invcov inv d s = Ok W) /\
  (forall f, SWTO_init lib junk inv d s setting L B J_min dirs spin = Ok f \/ PIO_init lib junk inv P d s setting L B J_min dirs spin = Ok f ->
     fo_data f = d /\ fo_setting f = setting /\ build_invcov inv d s = Ok (fo_invcov f) /\
     fo_nparams f = Some (if String.eqb setting "analysis" then n else (a + b)%nat)).
Proof.
  intros lib junk inv P d s setting L B J_min dirs spin a b p n (PM & PA).
  destruct (C33_construction lib junk L B J_min dirs spin false) as (C & _). destruct (C a b PM) as (t & E & _ & _ & N & _).
  unfold SWTO_init, PIO_init. rewrite E. cbn [rbind].
  assert (K : known_setting setting = true <-> (setting = "analysis"%string \/ setting = "synthesis"%string)).
  { unfold known_setting. rewrite orb_true_iff, !String.eqb_eq. tauto. }
  assert (Q : forall tr ms np, (exists f, Forward_init inv d s setting tr ms np = Ok f) <->
    (setting = "analysis"%string \/ setting = "synthesis"%string) /\ exists W, build_invcov inv d s = Ok W).
  { intros tr ms np. unfold Forward_init. destruct (build_invcov inv d s) as [W|e]; cbn [rbind].
    - destruct (known_setting setting); split; [intros _; split; [tauto|eauto]|intros _; eauto|intros (? & ?); discriminate|intros (? & _)].
      apply K in H. discriminate.
    - split; [intros (? & ?); discriminate|intros (_ & ? & ?); discriminate]. }
  split; [apply Q|]. split; [apply Q|].
  intros f H. assert (X : exists tr ms, Forward_init inv d s setting tr ms (Some (choose_nparams setting L t)) = Ok f) by (destruct H; eauto).
  destruct X as (tr & ms & X). destruct (Forward_init_ok _ _ _ _ _ _ _ _ X) as (B1 & _ & B2). rewrite B2. cbn.
  split; [reflexivity|]. split; [reflexivity|]. split; [exact B1|]. unfold choose_nparams. rewrite N. reflexivity.
Qed.
Print Assumptions C45_construction.

(** what forward computes: the image (analysis) or the synthesised image
    (synthesis), cut or zero-padded to the data, resp. multiplied by the path
    matrix *)
Lemma operator_shape : forall lib junk inv d s setting L B J_min dirs spin a b f ms,
  let p := wparams L B J_min dirs spin in let n := (L * (2 * L - 1))%nat in
  good_library lib p n a b ->
  (let* t := SWT_init lib junk L B J_min dirs spin false in
   Forward_init inv d s setting (Some (swt_transform t)) (Some ms) (Some (choose_nparams setting L t))) = Ok f ->
  fo_data f = d /\ fo_setting f = setting /\ fo_measurement f = Some ms /\
  (setting = "analysis"%string \/ setting = "synthesis"%string) /\
  exists t, fo_transform f = Some (swt_transform t) /\ adjoint_pair (SWT_inverse t) (SWT_inverse_adjoint t) (a + b) n /\
    forall w sc, length w = a -> length sc = b -> SWT_inverse t (sc ++ w) = synthesis_wav2px lib p w sc.
Proof.
  intros lib junk inv d s setting L B J_min dirs spin a b f ms p n (PM & PA) E.
  destruct (SWT_init lib junk L B J_min dirs spin false) as [t|] eqn:ET; cbn [rbind] in E; [|discriminate].
  destruct (Forward_init_ok _ _ _ _ _ _ _ _ E) as (_ & K & B2). rewrite B2. cbn [fo_data fo_setting fo_measurement fo_transform].
  split; [reflexivity|]. split; [reflexivity|]. split; [reflexivity|].
  split; [unfold known_setting in K; rewrite orb_true_iff, !String.eqb_eq in K; tauto|].
  exists t. split; [reflexivity|]. destruct (C33_adjoints lib junk L B J_min dirs spin t a b PM ET) as (_ & A2).
  destruct (swt_fields _ _ _ _ _ _ _ _ _ a b PM ET) as (E1 & E2 & E3 & E4 & E5 & E6 & E7).
  rewrite E3 in A2. split; [exact (A2 PA)|]. intros w sc Lw Ls. unfold SWT_inverse. rewrite E1, E2, E6.
  rewrite expand_split. cbn [rbind fst snd as_1d]. replace (Nat.min b (length (sc ++ w))) with (length sc) by (rewrite app_length; lia).
  rewrite skipn_app, skipn_all, Nat.sub_diag, firstn_app, firstn_all, Nat.sub_diag. cbn [firstn skipn app]. rewrite app_nil_r. reflexivity.
Qed.

Theorem C45_wavelet_forward : forall lib junk inv d s setting L B J_min dirs spin a b f,
  let p := wparams L B J_min dirs spin in let n := (L * (2 * L - 1))%nat in
  good_library lib p n a b -> SWTO_init lib junk inv d s setting L B J_min dirs spin = Ok f ->
  (setting = "analysis"%string -> forall X, length X = n -> fo_forward f X = Ok (pad_or_cut (length (d_val d)) X)) /\
  (setting = "analysis"%string -> forall X, length X <> n -> fo_forward f X = Raise AssertionError) /\
  (setting = "synthesis"%string -> forall w sc x, length w = a -> length sc = b -> synthesis_wav2px lib p w sc = Ok x ->
     fo_forward f (sc ++ w) = Ok (pad_or_cut (length (d_val d)) x)).
Proof.
  intros lib junk inv d s setting L B J_min dirs spin a b f p n GL E.
  destruct (operator_shape _ _ _ _ _ _ _ _ _ _ _ a b _ _ GL E) as (ED & ES & EM & K & t & ET & AP & EV).
  unfold fo_forward. rewrite ES, EM, ET. cbn [attr rbind ms_forward t_inverse swt_transform].
  destruct GL as (PM & PA & UM & _). fold p n in PM, PA, UM.
  split; [|split]; intros -> ; cbn [String.eqb Ascii.eqb Bool.eqb].
  - intros X HX. apply C29_values. exact HX.
  - intros X HX. apply C29_values. exact HX.
  - intros w sc x Lw Ls Ex. rewrite EV by auto. fold p. rewrite Ex. cbn [rbind]. apply C29_values.
    destruct (UM w sc Lw Ls) as (x' & Ex' & Lx'). fold p in Ex'. rewrite Ex in Ex'. apply Ok_inj in Ex'. subst x'. exact Lx'.
Qed.
Print Assumptions C45_wavelet_forward.

Theorem C45_path_forward : forall lib junk inv P d s setting L B J_min dirs spin a b f,
  let p := wparams L B J_min dirs spin in let n := (L * (2 * L - 1))%nat in
  good_library lib p n a b -> PIO_init lib junk inv P d s setting L B J_min dirs spin = Ok f -> 
  (m_cols P = n ->
   (setting = "analysis"%string -> forall X, length X = n -> exists y, fo_forward f X = Ok y /\ is_product P X y) /\
   (setting = "synthesis"%string -> forall w sc x, length w = a -> length sc = b -> synthesis_wav2px lib p w sc = Ok x ->
      exists y, fo_forward f (sc ++ w) = Ok y /\ is_product P x y)) /\
  (m_cols P <> n ->
   (setting = "analysis"%string -> forall X, length X = n -> fo_forward f X = Raise AssertionError) /\
   (setting = "synthesis"%string -> forall w sc x, length w = a -> length sc = b -> synthesis_wav2px lib p w sc = Ok x ->
      fo_forward f (sc ++ w) = Raise AssertionError)).
Proof.
  intros lib junk inv P d s setting L B J_min dirs spin a b f p n GL E.
  destruct (operator_shape _ _ _ _ _ _ _ _ _ _ _ a b _ _ GL E) as (ED & ES & EM & K & t & ET & AP & EV).
  unfold fo_forward. rewrite ES, EM, ET. cbn [attr rbind ms_forward t_inverse swt_transform].
  destruct GL as (PM & PA & UM & _). fold p n in PM, PA, UM.
  split; intros HP; split; intros -> ; cbn [String.eqb Ascii.eqb Bool.eqb].
  - intros X HX. apply C30_values. congruence.
  - intros w sc x Lw Ls Ex. rewrite EV by auto. fold p. rewrite Ex. cbn [rbind]. apply C30_values.
    destruct (UM w sc Lw Ls) as (x' & Ex' & Lx'). fold p in Ex'. rewrite Ex in Ex'. apply Ok_inj in Ex'. subst x'. rewrite Lx'. try (intros Q; apply HP; symmetry; exact Q); symmetry; exact HP.
  - intros X HX. apply C30_values. congruence.
  - intros w sc x Lw Ls Ex. rewrite EV by auto. fold p. rewrite Ex. cbn [rbind]. apply C30_values.
    destruct (UM w sc Lw Ls) as (x' & Ex' & Lx'). fold p in Ex'. rewrite Ex in Ex'. apply Ok_inj in Ex'. subst x'. rewrite Lx'. try (intros Q; apply HP; symmetry; exact Q); symmetry; exact HP.
Qed.
Print Assumptions C45_path_forward.

(** The gradient of both operators: for vectors of nparams entries, calc_gradg
    is the exact gradient of half the L2 term. *)
Theorem C45_gradient : forall lib junk inv P d s setting L B J_min dirs spin a b f pr q N,
  let p := wparams L B J_min dirs spin in let n := (L * (2 * L - 1))%nat in let m := length (d_val d) in
  good_library lib p n a b ->
  (SWTO_init lib junk inv d s setting L B J_min dirs spin = Ok f \/
   (PIO_init lib junk inv P d s setting L B J_min dirs spin = Ok f /\ m_cols P = n /\ m_rows P = m)) ->
  hermitian (fo_invcov f) m -> fo_nparams f = Some N ->
  forall X, length X = N -> exists preds g, fo_forward f X = Ok preds /\ length preds = m /\ fo_gradg f preds = Ok g /\ length g = N /\
    forall h l2 l2', length h = N -> L2_of f pr q X l2 -> L2_of f pr q (vadd X h) l2' ->
      exists fh, fo_forward f h = Ok fh /\ Im l2 = 0 /\ Im l2' = 0 /\
        (1 / 2) * Re l2' = (1 / 2) * Re l2 + Re (cdot g h) + (1 / 2) * Re (quadform (fo_invcov f) fh).
Proof.
  intros lib junk inv P d s setting L B J_min dirs spin a b f pr q N p n m GL E HW EN X HX.
  destruct (C45_construction lib junk inv P d s setting L B J_min dirs spin a b GL) as (_ & _ & CN).
  destruct (CN f ltac:(destruct E as [E|[E _]]; auto)) as (ED & _ & _ & EN'). rewrite EN in EN'. injection EN' as EN'.
  assert (LM : linear_model f N m).
  { assert (X0 : exists ms, (let* t := SWT_init lib junk L B J_min dirs spin false in
        Forward_init inv d s setting (Some (swt_transform t)) (Some ms) (Some (choose_nparams setting L t))) = Ok f /\
        adjoint_pair (ms_forward ms) (ms_adjoint ms) n m).
    { destruct E as [E|(E & HC & HR)].
      - eexists. split; [exact E|]. apply C29_adjoint.
      - eexists. split; [exact E|]. rewrite <- HC, <- HR. apply C30_adjoint. }
    destruct X0 as (ms & E0 & AM).
    destruct (operator_shape _ _ _ _ _ _ _ _ _ _ _ a b _ _ GL E0) as (_ & ES & EM & K & t & ET & AP & EV).
    destruct K as [K|K]; rewrite K in EN'; cbn in EN'; [left|right]; (split; [congruence|]); exists ms.
    - split; [exact EM|]. rewrite EN'. exact AM.
    - exists (swt_transform t), n. split; [exact EM|]. split; [exact ET|]. split; [rewrite EN'; exact AP|exact AM]. }
  destruct (linear_model_ops f N m LM) as (A & (MF & _) & _). destruct (MF X HX) as (preds & EP & LP).
  destruct (C15_gradient_of_half_L2 f pr q N m X preds LM HW ltac:(rewrite ED; reflexivity) HX EP) as (g & G1 & G2 & G3).
  exists preds, g. auto.
Qed.
Print Assumptions C45_gradient.

(** for real data with real errors the hypothesis on the covariance holds *)
Theorem C45_real_data_hermitian : forall inv d s f setting tr ms np (e : list R),
  Forward_init inv d s setting tr ms np = Ok f -> d_complex d = false -> real_errors s (length (d_val d)) e ->
  hermitian (fo_invcov f) (length (d_val d)).
Proof.
  intros inv d s f setting tr ms np e E DC RE. destruct (Forward_init_ok _ _ _ _ _ _ _ _ E) as (B & _ & _).
  destruct (real_errors_invcov inv d s e DC RE) as (W & EW & DW). rewrite EW in B. injection B as B. rewrite <- B.
  assert (LR := proj1 DW). assert (H := diagonal_hermitian _ _ DW). rewrite map_length in H. destruct RE as (Ls & _).
  rewrite Ls in H. apply H. intros z Hz. apply in_map_iff in Hz. destruct Hz as (x & <- & _). reflexivity.
Qed.
Print Assumptions C45_real_data_hermitian.

(** the toy library: one data point, synthesis *)
Example C45_case : exists f, SWTO_init toy_lib (fun _ => RtoC 0) (fun A => Ok A) (mkData [RtoC 3; RtoC 4] false) (SPy (RtoC 1) false)
    "synthesis" 3 2 0 1 0 = Ok f /\ fo_nparams f = Some 15%nat /\
  fo_forward f (map (fun k => RtoC (INR k)) (seq 0 15)) = Ok [RtoC 0; RtoC 1] /\ hermitian (fo_invcov f) 2.
Proof.
  assert (GL : good_library toy_lib (wparams 3 2 0 1 0) (3 * (2 * 3 - 1)) 9 6).
  { split; [exact (proj1 (proj1 (toy_pair 6 9)))|exact (proj1 (toy_pair 6 9))]. }
  assert (RE : real_errors (SPy (RtoC 1) false) 2 [1; 1]).
  { split; [reflexivity|]. split; [intros x [<-|[<-|[]]]; lra|]. left. exists 1. split; [lra|]. split; reflexivity. }
  destruct (C45_construction toy_lib (fun _ => RtoC 0) (fun A => Ok A) (mkMat 0 0 (fun _ _ => RtoC 0))
    (mkData [RtoC 3; RtoC 4] false) (SPy (RtoC 1) false) "synthesis" 3 2 0 1 0 9 6 GL) as ((_ & C) & _ & N).
  destruct C as (f & E). { split; [auto|]. destruct (real_errors_invcov (fun A => Ok A) (mkData [RtoC 3; RtoC 4] false) _ [1; 1] eq_refl RE) as (W & EW & _). eauto. }
  exists f. split; [exact E|]. destruct (N f (or_introl E)) as (_ & _ & _ & NN). split; [exact NN|]. split.
  - destruct (C45_wavelet_forward _ _ _ _ _ _ _ _ _ _ _ 9 6 _ GL E) as (_ & _ & S).
    specialize (S eq_refl (map (fun k => RtoC (INR k)) (seq 6 9)) (map (fun k => RtoC (INR k)) (seq 0 6))
      (map (fun k => RtoC (INR k)) (seq 0 15)) eq_refl eq_refl).
    rewrite <- map_app in S. change (seq 0 6 ++ seq 6 9) with (seq 0 15) in S. rewrite S; [reflexivity|].
    unfold toy_lib, synthesis_wav2px, join_lib. rewrite !map_length, !seq_length. cbn [Nat.eqb andb]. rewrite <- map_app. reflexivity.
  - unfold SWTO_init in E. destruct (SWT_init _ _ _ _ _ _ _ _); cbn [rbind] in E; [|discriminate].
    exact (C45_real_data_hermitian _ _ _ _ _ _ _ _ _ E eq_refl RE).
Qed.
