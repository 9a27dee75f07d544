(** C53: from main.py to plot.py.  What the experiment scripts save is what the
    plotting scripts read, and whether they get to the end. *)
From Coq Require Import List ZArith Lia Bool Reals Lra Psatz String.
From Coquelicot Require Import Coquelicot.
From Verif Require Import PyBase PyBaseFacts CVec RSort Thresh ThreshSpec Utils UtilsSpec UtilsProof P_Utils OpSpec Quad QuadMain Prior PriorProof P_Prior
  Measure MeasSpec MeasProof P_Meas Forward FwdProof TransSpec Transforms P_Trans Sampler SamplerSpec Mcmc McmcSpec StepProof
  Objects ObjSpec ObjProof P_Mcmc P_Works Uncertainty UncProof P_Unc Plotting P_Plot
  ExpData ExpSpec ExpProof P_ExpLens P_ExpPaths P_ExpTopo P_ExpTopoB ExpRun ExpRunSpec P_ExpRun ExpPlot ExpPlotSpec P_ExpPlot P_ExpPlotB P_ExpPlotC ExpLink.
Import ListNotations.
Open Scope R_scope.
Notation length := List.length.

(** ** Vocabulary *)

(** numbers, strings and arrays of numbers *)
Definition simple (v : pv) : Prop :=
  match v with VInt _ | VOther (XReal _) | VOther (XStr _) | VOther (XArr _) => True | _ => False end.
Definition numeric (v : pv) : Prop := match v with VScal _ | VChain _ => True | _ => False end.
(** they come back from the file as they were stored *)
Definition reads_back {B} (rd : B -> pv) (h5_data : bool -> pv -> res B) (h5_attr : pv -> res B) : Prop :=
  (forall v b, simple v -> h5_attr v = Ok b -> rd b = v) /\
  (forall v b, numeric v -> h5_data false v = Ok b -> rd b = v).
(** the wavelet parameter of each script; the noise it saves *)
Definition script_B (e : experiment) : R := match e with Topo _ _ _ => 3 / 2 | _ => 2 end.
Definition script_noise (e : experiment) : noise_attr :=
  match e with Topo (Some l) _ _ => NArr l | Topo None _ _ => NNum 0 | _ => NoNoise end.

Lemma read_held : forall B (rd : B -> pv) (conv : pv -> res B) d k v, (forall b, conv v = Ok b -> rd b = v) ->
  holds conv d k (Some v) -> read_key rd d k = Ok v.
Proof. intros B rd conv d k v H (b & E & D). unfold read_key. rewrite D, (H b E). reflexivity. Qed.

(** ** What the plotting script finds in a file written by the main script *)
Theorem C53_opened : forall G B (R0 : rng G) h5_open h5_data h5_attr (rd : B -> pv) e c f inv iadj til0 til now elapsed fuel
    (w : pyworld vec vec C R G xval) (fs : @fsys B) W fs',
  reads_back rd h5_data h5_attr ->
  run_experiment R0 h5_open h5_data h5_attr e c f inv iadj til0 til now elapsed fuel w fs = (W, fs', Ret tt) ->
  exists pr n file o, exp_prior e c inv iadj til0 til = Ok pr /\ fo_nparams f = Some n /\ fs' (result_path c now) = Some file /\
    open_results rd file = Ok o /\ op_B o = script_B e /\ op_Jmin o = 2%Z /\ op_noise o = script_noise e /\
    let F := op_results o in
    rs_L F = c_L c /\ rs_setting F = Some "synthesis"%string /\ rs_nsamples F = Z.of_nat (samples_of e) /\
    length (rs_logpi F) = samples_of e /\ length (rs_chain F) = samples_of e /\
    (forall s, In s (rs_chain F) -> length s = n) /\
    forall X, file_rows h5_data file f pr (script_num e c) n (samples_of e) X ->
    forall j, (j < samples_of e)%nat -> exists d lp l2 p row,
      fo_forward f (X j) = Ok d /\ logpi f pr (script_num e c) (X j) d = Ok (lp, l2, p) /\
      nth_error (rs_logpi F) j = Some (fst lp) /\ nth_error (rs_chain F) j = Some row /\ assigned n real_part (X j) row.
Proof.
  intros G B R0 ho hd ha rd e c f inv iadj til0 til now elapsed fuel w fs W fs' (RA & RD) E.
  assert (SY : c_setting c = "synthesis"%string).
  { destruct (C51_settings G B R0 ho hd ha e c f inv iadj til0 til now elapsed fuel w fs) as (S1 & S2 & _). rewrite E in S1, S2. cbn [snd] in S1, S2.
    destruct (string_dec (c_setting c) "synthesis") as [Q|Q]; [exact Q|]. destruct (string_dec (c_setting c) "analysis") as [Q'|Q'].
    - specialize (S1 Q'). discriminate.
    - specialize (S2 Q' Q). discriminate. }
  destruct (C51_saved G B R0 ho hd ha e c f inv iadj til0 til now elapsed fuel w fs W fs' E) as (pr & n & file & EP & EN & EF & _ & HA & _ & X0 & FR & _).
  destruct FR as (chain & lps & l2s & prs & (Hc & Lc) & (Hl & Ll) & (H2 & _) & (H3 & _) & HR).
  assert (AT : forall k v, saved_attr e c n elapsed k = Some v -> simple v -> read_key rd (h5_attrs file) k = Ok v).
  { intros k v Q SV. apply (read_held B rd ha); [intros b; apply RA; exact SV|]. rewrite <- Q. apply HA. }
  assert (A_L := AT "L"%string _ eq_refl I). assert (A_J := AT "J_min"%string _ eq_refl I). assert (A_n := AT "nsamples"%string _ eq_refl I).
  assert (A_B := AT "B"%string _ eq_refl ltac:(destruct e; exact I)). assert (A_s := HA "setting"%string). cbn in A_s.
  destruct A_s as (bs & Ebs & Dbs).
  assert (Rbs : rd bs = vstr "synthesis") by (rewrite <- SY; apply (RA (vstr (c_setting c))); [exact I|exact Ebs]).
  assert (RA2 : forall v b, ha v = Ok b -> simple v -> rd b = v) by (intros; apply RA; auto).
  assert (RD2 : forall v b, hd false v = Ok b -> numeric v -> rd b = v) by (intros; apply RD; auto).
  assert (RH : forall k v, holds (hd false) (h5_datasets file) k (Some v) -> numeric v -> read_key rd (h5_datasets file) k = Ok v)
    by (intros k v Hk Nv; apply (read_held B rd (hd false)); [intros b; apply RD; exact Nv|exact Hk]).
  assert (NA : as_noise (option_map rd (dget (h5_attrs file) "noise")) = Ok (script_noise e)).
  { assert (A := HA "noise"%string). destruct e as [nz sg af|ns et|]; cbn in A.
    - destruct A as (b & Eb & Db). rewrite Db. cbn [option_map].
      destruct nz; rewrite (RA2 _ b Eb I); reflexivity.
    - rewrite A. reflexivity.
    - rewrite A. reflexivity. }
  assert (D1 := RH _ _ Hl I). assert (D2 := RH _ _ H2 I).
  assert (D3 := RH _ _ H3 I). assert (D4 := RH _ _ Hc I).
  exists pr, n, file. eexists. split; [exact EP|]. split; [exact EN|]. split; [exact EF|]. split.
  { unfold open_results. cbv zeta. rewrite A_L. cbn [rbind as_int]. rewrite A_B. cbn [rbind].
    assert (QB : as_float (match e with Topo _ _ _ => vreal (3 / 2) | _ => VInt 2 end) = Ok (script_B e)) by (destruct e; reflexivity).
    rewrite QB. cbn [rbind]. rewrite A_J. cbn [rbind as_int]. rewrite Dbs, Rbs. cbn [rbind as_text vstr].
    rewrite D1. cbn [rbind as_numbers]. rewrite D2. cbn [rbind]. rewrite D3. cbn [rbind]. rewrite D4. cbn [rbind as_rows].
    rewrite A_n. cbn [rbind as_int]. rewrite NA. cbn [rbind]. reflexivity. }
  cbn [op_B op_Jmin op_noise op_results rs_L rs_setting rs_nsamples rs_logpi rs_chain]. split; [reflexivity|]. split; [reflexivity|]. split; [reflexivity|].
  split; [apply Nat2Z.id|]. split; [reflexivity|]. split; [reflexivity|]. split; [rewrite map_length; exact Ll|]. split; [exact Lc|]. split.
  - intros s I0. apply In_nth_error in I0. destruct I0 as (j & Hj). assert (J : (j < samples_of e)%nat) by (rewrite <- Lc; apply nth_error_Some; congruence).
    destruct (HR j J) as (d & lp & l2 & p & row & _ & _ & E1 & E2 & _). rewrite Hj in E1. injection E1 as ->.
    destruct E2 as [((_ & _) & L)|(z & _ & ->)]; [exact L|apply repeat_length].
  - intros X (chain' & lps' & l2s' & prs' & (Hc' & Lc') & (Hl' & Ll') & _ & _ & HR') j Hj.
    destruct (HR' j Hj) as (d & lp & l2 & p & row & F1 & F2 & F3 & F4 & F5 & _).
    assert (Q : VChain chain' = VChain chain :> pv).
    { destruct Hc' as (b' & Eb' & Db'). destruct Hc as (b & Eb & Db). assert (b = b') by congruence. subst b'.
      rewrite <- (RD2 _ b Eb I), <- (RD2 _ b Eb' I). reflexivity. }
    assert (Q' : VScal lps' = VScal lps :> pv).
    { destruct Hl' as (b' & Eb' & Db'). destruct Hl as (b & Eb & Db). assert (b = b') by congruence. subst b'.
      rewrite <- (RD2 _ b Eb I), <- (RD2 _ b Eb' I). reflexivity. }
    injection Q as ->. injection Q' as ->. exists d, lp, l2, p, row. split; [exact F1|]. split; [exact F2|]. split; [|split; [exact F3|exact F4]].
    rewrite nth_error_map. exact (f_equal (option_map fst) F5).
Qed.
Print Assumptions C53_opened.

(** ** The main scripts end *)

(** the operators the scripts build, in the synthesis setting *)
Definition operator_of (lib : s2let) (junk : nat -> C) (inv : cmat -> res cmat) (e : experiment) (L : nat) (f : forward_op) : Prop :=
  let npix := (L * (2 * L - 1))%nat in
  match e with
  | Topo _ _ _ => exists v cplx s, (forall A, s <> SMat A) /\ topo_operator lib junk inv L "synthesis" v cplx s = Ok f
  | Phase nsim _ => exists build_path fs rows n pathsfile fs', table rows n 8 /\ (2 <= n)%nat /\
      (forall P, fs pathsfile = Some P -> m_cols P = npix) /\ (forall x y r, build_path x y L = Ok r -> length r = npix) /\
      phasevel_operator lib junk inv build_path fs rows pathsfile nsim "synthesis" L = (fs', Ok f)
  | Lens => exists hp S infile gal_b, (1 <= L)%nat /\
      adjoint_pair (ss_forward S L 0) (ss_forward_adjoint S L 0) npix (L * L) /\
      adjoint_pair (ss_inverse S L 2) (ss_inverse_adjoint S L 2) (L * L) npix /\
      lensing_operator hp S lib junk inv infile L (mw_thetas L) (mw_phis L) gal_b "synthesis" = Ok f
  end.

Lemma weights_total : forall setting fwd adj T L til p bls, S2_init setting fwd adj T L til = Ok p -> multires_bandlimits L til = Ok bls ->
  length (s_weights p) = total_size bls.
Proof.
  intros setting fwd adj T L til p bls E EB. destruct (C36_weights _ _ _ _ _ _ _ E) as (bls' & ws & EB' & F & -> & _).
  rewrite EB in EB'. apply Ok_inj in EB'. subst bls'. assert (R := proj2 (C28_range _ _ _ EB)). clear - F R.
  induction F as [|b w bls ws H F IH]; [reflexivity|]. cbn [List.concat total_size fold_right]. rewrite app_length.
  f_equal; [|apply IH; intros; apply R; right; auto]. assert (Hb := R b (or_introl eq_refl)).
  apply (weights_positive b w); [lia|exact H].
Qed.

(** the regulariser works on vectors of as many entries as the wavelet maps of
    the band limits have *)
Theorem C53_regulariser : forall e c inv iadj til0 til pr bls, exp_prior e c inv iadj til0 til = Ok pr ->
  multires_bandlimits (c_L c) til = Ok bls ->
  maps (pr_proxf pr) (total_size bls) (total_size bls) /\ (forall x, length x = total_size bls -> exists r, pr_prior pr x = Ok r).
Proof.
  intros e c inv iadj til0 til pr bls E EB. unfold exp_prior in E. cbv zeta in E.
  assert (S2 : forall T, T = TScal (exp_lmda e c * c_mu c) -> (let* p := S2_init (c_setting c) inv iadj T (c_L c) til in Ok (mkPrior (S2_prior p) (S2_proxf p))) = Ok pr ->
    maps (pr_proxf pr) (total_size bls) (total_size bls) /\ (forall x, length x = total_size bls -> exists r, pr_prior pr x = Ok r)).
  { intros T -> Q. destruct (S2_init _ _ _ _ _ _) as [p|] eqn:EI; cbn [rbind] in Q; [|discriminate]. apply Ok_inj in Q. subst pr.
    assert (W := weights_total _ _ _ _ _ _ _ _ EI EB). destruct (C36_shapes _ _ _ _ _ _ _ EI) as (M & P). rewrite W in M, P. split; assumption. }
  destruct e as [nz sg af|ns eta|]; [apply (S2 _ eq_refl E)| |apply (S2 _ eq_refl E)].
  destruct (Power_init _ _ _ _ _ _ _ _) as [p|] eqn:EI; cbn [rbind] in E; [|discriminate]. apply Ok_inj in E. subst pr.
  destruct (Power_T _ _ _ _ _ _ _ _ _ EI) as (b & EBb & LE & _). assert (W := weights_total _ _ _ _ _ _ _ _ EBb EB).
  destruct (C36_power_shapes _ _ _ _ _ _ _ _ _ EI) as (M & P). rewrite LE in W. rewrite W in M, P. split; assumption.
Qed.
Print Assumptions C53_regulariser.

Lemma inverse_maps : forall lib junk L wB a b t, let p := wparams L wB 2 1 0 in let npix := (L * (2 * L - 1))%nat in
  good_library lib p npix a b -> SWT_init lib junk L wB 2 1 0 false = Ok t ->
  sw_ncoefs t = (a + b)%nat /\ maps (SWT_inverse t) (a + b) npix /\ maps (SWT_inverse_adjoint t) npix (a + b).
Proof.
  intros lib junk L wB a b t p npix (PM & PA) ET. destruct (swt_fields _ _ _ _ _ _ _ _ _ a b PM ET) as (_ & _ & N & _).
  destruct (C33_adjoints _ _ _ _ _ _ _ _ a b PM ET) as (_ & H). destruct (H PA) as (M1 & M2 & _). rewrite N in M1, M2. auto.
Qed.

(** operator and regulariser fit: [a] wavelet and [b] scaling coefficients, as
    many as there are weights *)
Theorem C53_shapes : forall lib junk inv e c f inv' iadj til0 til pr bls a b,
  let L := c_L c in
  good_library lib (wparams L (script_B e) 2 1 0) (L * (2 * L - 1)) a b -> operator_of lib junk inv e L f ->
  exp_prior e c inv' iadj til0 til = Ok pr -> multires_bandlimits L til = Ok bls -> total_size bls = (a + b)%nat ->
  exists m, shapes_fit f pr (a + b) m.
Proof.
  intros lib junk inv e c f inv' iadj til0 til pr bls a b L GL OP EP EB TS. assert (GL' := GL). destruct GL' as (PM & _).
  destruct (C33_construction lib junk L (script_B e) 2 1 0 false) as (C1 & _). destruct (C1 a b PM) as (t & ET & _). clear C1.
  destruct (inverse_maps _ _ _ _ _ _ _ GL ET) as (NC & M1 & M2). destruct (C53_regulariser _ _ _ _ _ _ _ _ EP EB) as (P1 & P2). rewrite TS in P1, P2.
  assert (K : forall d s ms np m, np = (a + b)%nat -> Forward_init inv d s "synthesis" (Some (swt_transform t)) (Some ms) (Some np) = Ok f -> (forall A, s <> SMat A) ->
    length (d_val d) = m -> maps (ms_forward ms) (L * (2 * L - 1)) m -> maps (ms_adjoint ms) m (L * (2 * L - 1)) -> exists m, shapes_fit f pr (a + b) m).
  { intros d s ms np m -> EF NM LD MF MA. exists m.
    apply (C17_operator_shapes inv d s "synthesis" (swt_transform t) ms (a + b) (L * (2 * L - 1)) m f EF NM LD MF MA); auto.
    intros Q. discriminate Q. }
  destruct e as [nz sg af|ns eta|]; cbn [script_B] in ET.
  - destruct OP as (v & cplx & s & NM & OP). unfold topo_operator, SWTO_init in OP. rewrite ET in OP. cbn [rbind d_val] in OP.
    apply (K _ _ _ _ (length v) NC OP NM eq_refl); cbn [ms_forward ms_adjoint].
    + intros x Lx. destruct (C29_values (length v) (mw_size L) x) as (A & _). rewrite (A Lx). eexists. split; [reflexivity|].
      unfold pad_or_cut. rewrite map_length, seq_length. reflexivity.
    + intros x Lx. destruct (C29_values (length v) (mw_size L) x) as (_ & A & _). rewrite (A Lx). eexists. split; [reflexivity|].
      unfold pad_or_cut. rewrite map_length, seq_length. reflexivity.
  - destruct OP as (bp & fs & rows & n & pf & fs' & T & Hn & HP & HB & OP). unfold phasevel_operator in OP.
    destruct (C49_read rows n T Hn) as (d & ER & L1 & L2 & L3 & L4 & L5 & _). rewrite ER in OP.
    assert (KP : forall P s, m_cols P = (L * (2 * L - 1))%nat -> (forall A, s <> SMat A) ->
      (if Nat.eqb (m_rows P) (length (pd_data d)) then PIO_init lib junk inv P (mkData (map RtoC (pd_data d)) false) s "synthesis" L 2 2 1 0
       else Raise AssertionError) = Ok f -> exists m, shapes_fit f pr (a + b) m).
    { intros P s HC NM EF. destruct (Nat.eqb_spec (m_rows P) (length (pd_data d))) as [RP|]; [|discriminate].
      unfold PIO_init in EF. rewrite ET in EF. cbn [rbind] in EF. destruct (C30_adjoint P) as (F1 & F2 & _). rewrite HC in F1, F2.
      apply (K _ _ _ _ (m_rows P) NC EF NM); [cbn [d_val]; rewrite map_length; auto| |]; assumption. }
    assert (NS : forall l cc A, SVec l cc <> SMat A) by discriminate.
    destruct (fs pf) as [P|] eqn:EPf.
    + injection OP as _ OP. cbn [rbind] in OP. apply (KP P _ (HP P eq_refl) (NS _ _) OP).
    + destruct (get_path_matrix bp (pd_start d) (pd_stop d) L) as [P|ex] eqn:EM; injection OP as _ OP; cbn [rbind] in OP; [|discriminate].
      refine (KP P _ _ (NS _ _) OP). unfold get_path_matrix in EM.
      destruct (rseq (map (fun st => bp (fst st) (snd st) L) (combine (pd_start d) (pd_stop d)))) as [paths|] eqn:EPs; cbn [rbind] in EM; [|discriminate].
      destruct (pd_start d) as [|x xs]; [cbn in L1; lia|]. destruct (pd_stop d) as [|y ys]; [cbn in L2; lia|]. cbn [combine map rseq fst snd] in EPs.
      destruct (bp x y L) as [r|] eqn:Er; cbn [rbind] in EPs; [|discriminate].
      destruct (rseq _) as [rs|] in EPs; cbn [rbind] in EPs; [|discriminate]. apply Ok_inj in EPs. subst paths. unfold csr_matrix in EM.
      destruct (forallb _ rs); [|discriminate]. apply Ok_inj in EM. subst P. cbn [m_cols]. apply (HB _ _ _ Er).
  - destruct OP as (hp & S & infile & gal_b & HL & A0 & A2 & OP). unfold lensing_operator in OP.
    destruct (lensing_measurement L (mw_thetas L) (mw_phis L) gal_b) as [w|] eqn:EW; cbn [rbind] in OP; [|discriminate].
    destruct (load_gammas hp S infile L w) as [g|] eqn:EG; cbn [rbind] in OP; [|discriminate]. rewrite ET in OP. cbn [rbind] in OP.
    assert (AW : adjoint_pair (WL_forward S w) (WL_adjoint S w) (L * (2 * L - 1)) (length (set_positions (b_bits (w_mask w))))).
    { unfold lensing_measurement in EW. cbv zeta in EW. set (m := build_mask L (mw_thetas L) (mw_phis L) gal_b 10) in *.
      assert (T : table m L (2 * L - 1)) by apply mask_table. assert (LC := length_concat_table _ _ _ T).
      assert (M : map_mask L (mask_bits L m)) by (split; [reflexivity|]; unfold mask_bits; cbn [b_bits]; rewrite map_length; auto).
      assert (HG : forall s g, Some ([L; (2 * L - 1)%nat], map (fun _ : R => 30) (List.concat m)) = Some (s, g) -> s = [L; (2 * L - 1)%nat] /\ length g = (L * (2 * L - 1))%nat).
      { intros s g' Q. injection Q as <- <-. split; [reflexivity|]. rewrite map_length; auto. }
      assert (AA := C32_adjoint S L _ _ w EW HL M HG A0 A2).
      destruct (C32_construction L (Some (mask_bits L m)) _ HL M HG) as (w' & E' & _ & EMk & _). rewrite EW in E'. injection E' as <-.
      rewrite EMk. exact AA. }
    destruct AW as (F1 & F2 & _). apply (K _ _ _ _ (length (set_positions (b_bits (w_mask w)))) NC OP); [discriminate| |exact F1|exact F2].
    cbn [d_val]. unfold load_gammas in EG. cbv zeta in EG.
    repeat (match type of EG with rbind ?x _ = _ => destruct x; cbn [rbind] in EG; [|discriminate] end).
    match type of EG with WL_forward S w ?k = _ => destruct (Nat.eq_dec (length k) (L * (2 * L - 1))) as [Lk|Lk] end.
    + destruct (F1 _ Lk) as (y & Ey & Ly). rewrite EG in Ey. apply Ok_inj in Ey. subst y. exact Ly.
    + exfalso. rewrite C32_forward_size in EG; [discriminate|]. destruct (C50_measurement L gal_b HL) as (w' & ps & E' & _ & _ & _ & WL & _).
      rewrite EW in E'. apply Ok_inj in E'. subst w'. rewrite WL. exact Lk.
Qed.
Print Assumptions C53_shapes.

(** With a random number generator that draws what it is asked for and a file
    system that accepts the results, a MYULA or SKROCK run ends with the results
    saved after exactly the scheduled number of iterations; PxMALA raises nothing. *)
Theorem C53_main_ends : forall G B (R0 : rng G) h5_open h5_data h5_attr lib junk minv e c f inv iadj til0 til now elapsed fuel
    (w : pyworld vec vec C R G xval) (fs : @fsys B) pr bls a b,
  let L := c_L c in
  good_library lib (wparams L (script_B e) 2 1 0) (L * (2 * L - 1)) a b -> operator_of lib junk minv e L f ->
  exp_prior e c inv iadj til0 til = Ok pr -> multires_bandlimits L til = Ok bls -> total_size bls = (a + b)%nat ->
  good_rng R0 -> c_delta c <> 0 ->
  h5_open (result_path c now) = Ok tt -> (forall b v, exists y, h5_data b v = Ok y) -> (forall v, exists y, h5_attr v = Ok y) ->
  let whole := run_experiment R0 h5_open h5_data h5_attr e c f inv iadj til0 til now elapsed fuel w fs in
  (c_algo c = "myula"%string \/ c_algo c = "skrock"%string ->
     ((iterations e <= Z.of_nat fuel)%Z -> snd whole = Ret tt) /\ ((Z.of_nat fuel < iterations e)%Z -> snd whole = NoFuel)) /\
  (c_algo c = "pxmala"%string -> snd whole = Ret tt \/ snd whole = NoFuel).
Proof.
  intros G B R0 ho hd ha lib junk minv e c f inv iadj til0 til now elapsed fuel w fs pr bls a b L GL OP EP EB TS GR DN HO HD HA whole.
  destruct (C53_shapes lib junk minv e c f inv iadj til0 til pr bls a b GL OP EP EB TS) as (m & SF).
  apply (C51_ends G B R0 ho hd ha e c f inv iadj til0 til now elapsed fuel w fs pr (a + b) m EP GR SF); auto.
  destruct e; cbn [lambda_of]; lra.
Qed.
Print Assumptions C53_main_ends.

(** ** The plotting scripts process the files written *)

(** everything saved is usable: sizes, setting and number of samples agree, and
    every sample can be turned into an image.  [junk'] is what the plotting
    script's np.empty contains. *)
Theorem C53_readable : forall G B (R0 : rng G) h5_open h5_data h5_attr (rd : B -> pv) lib junk junk' minv e c f inv iadj til0 til now elapsed fuel
    (w : pyworld vec vec C R G xval) (fs : @fsys B) W fs' bls a b burn,
  let L := c_L c in
  reads_back rd h5_data h5_attr -> (1 <= L)%nat -> (0 <= burn < Z.of_nat (samples_of e))%Z ->
  good_library lib (wparams L (script_B e) 2 1 0) (L * (2 * L - 1)) a b -> operator_of lib junk minv e L f ->
  multires_bandlimits L til = Ok bls -> total_size bls = (a + b)%nat ->
  run_experiment R0 h5_open h5_data h5_attr e c f inv iadj til0 til now elapsed fuel w fs = (W, fs', Ret tt) ->
  exists file o t, fs' (result_path c now) = Some file /\ open_results rd file = Ok o /\
    SWT_init lib junk' (rs_L (op_results o)) (op_B o) (op_Jmin o) 1 0 false = Ok t /\
    op_noise o = script_noise e /\ rs_L (op_results o) = L /\ rs_setting (op_results o) = Some "synthesis"%string /\
    readable "synthesis" (SWT_inverse t) (SWT_forward t) burn (op_results o) /\
    (forall s, In s (rs_chain (op_results o)) -> length s = total_size bls).
Proof.
  intros G B R0 ho hd ha rd lib junk junk' minv e c f inv iadj til0 til now elapsed fuel w fs W fs' bls a b burn L RB HL HB GL OP EB TS E.
  destruct (C53_opened G B R0 ho hd ha rd e c f inv iadj til0 til now elapsed fuel w fs W fs' RB E)
    as (pr & n & file & o & EP & EN & EF & EO & OB & OJ & ON & RL & RS & RN & LL & LC & RR & _).
  destruct (C53_shapes lib junk minv e c f inv iadj til0 til pr bls a b GL OP EP EB TS) as (m & SF).
  assert (n = (a + b)%nat) by (destruct SF as (F1 & _); congruence). subst n.
  destruct (C33_construction lib junk' L (script_B e) 2 1 0 false) as (C1 & _). destruct (C1 a b (proj1 GL)) as (t & ET & _). clear C1.
  destruct (inverse_maps _ _ _ _ _ _ _ GL ET) as (_ & M1 & _).
  exists file, o, t. split; [exact EF|]. split; [exact EO|]. split; [rewrite RL, OB, OJ; exact ET|]. split; [exact ON|]. split; [exact RL|]. split; [exact RS|].
  assert (SP : (0 < samples_of e)%nat) by (destruct e; cbn [samples_of]; apply Nat.lt_0_succ).
  split; [|intros s I0; rewrite TS; apply RR; exact I0]. unfold readable. rewrite RL, RN, LL, LC. split; [exact HL|].
  split; [intros Q; rewrite Q in LL; cbn in LL; lia|]. split; [lia|]. split; [reflexivity|]. split; [exact HB|].
  intros s I0. split; [|intros Q; congruence]. destruct (M1 s (RR s I0)) as (v & Ev & Lv). exists v. split; [|exact Lv].
  left. split; [reflexivity|exact Ev].
Qed.
Print Assumptions C53_readable.

(** Topography.  A run without --makenoise can be plotted; after one with
    --makenoise, which saves an array of noise, plot.py stops with a ValueError
    after eight figures and prints none of its results. *)
Theorem C53_topo_plot : forall G B (R0 : rng G) h5_open h5_data h5_attr (rd : B -> pv) lib junk junk' minv noise sigma africa c f inv iadj til0 til now elapsed fuel
    (w : pyworld vec vec C R G xval) (fs : @fsys B) W fs' bls a b rf ri typed truth args,
  let L := c_L c in let npix := (L * (2 * L - 1))%nat in let e := Topo noise sigma africa in
  reads_back rd h5_data h5_attr -> (1 <= L <= 256)%nat -> (0 <= pa_burn args < 100)%Z ->
  good_library lib (wparams L (3 / 2) 2 1 0) npix a b -> operator_of lib junk minv e L f ->
  multires_bandlimits L til = Ok bls -> total_size bls = (a + b)%nat -> full_shape truth L -> length (cm_buf truth) = npix ->
  run_experiment R0 h5_open h5_data h5_attr e c f inv iadj til0 til now elapsed fuel w fs = (W, fs', Ret tt) ->
  exists file outs, fs' (result_path c now) = Some file /\ let plot := topo_plot_file rd lib junk' rf ri typed truth args file in
    (noise = None -> pa_npy args = false -> plot = (outs, Ok tt)) /\
    (noise = None -> pa_npy args = true -> plot = (outs, Raise TypeError) /\ length outs = 10%nat) /\
    (forall l, noise = Some l -> (2 <= length l)%nat -> plot = (outs, Raise ValueError) /\ length outs = 8%nat /\ forall label v, ~ In (OPrint label v) outs).
Proof.
  intros G B R0 ho hd ha rd lib junk junk' minv noise sigma africa c f inv iadj til0 til now elapsed fuel w fs W fs' bls a b rf ri typed truth args
    L npix e RB HL HB GL OP EB TS Sh Lt E.
  destruct (C53_readable G B R0 ho hd ha rd lib junk junk' minv e c f inv iadj til0 til now elapsed fuel w fs W fs' bls a b (pa_burn args) RB
    (proj1 HL) HB GL OP EB TS E) as (file & o & t & EF & EO & ET & ON & RL & RS & RDb & _).
  exists file. cbv zeta. unfold topo_plot_file, with_file. rewrite EO, ET, ON. cbn [e script_noise].
  fold L in RL. assert (RS' : match rs_setting (op_results o) with Some s => s | None => typed end = "synthesis"%string) by (rewrite RS; reflexivity).
  set (nz := match noise with Some l => NArr l | None => NNum 0 end).
  assert (CP := C52_topo_completes rf ri typed (SWT_inverse t) (SWT_forward t) truth nz args (op_results o)). cbv zeta in CP.
  rewrite RS', RL in CP. specialize (CP RDb (proj2 HL) Sh Lt). destruct CP as (P1 & P2 & P3).
  assert (NZ : nz = NArr match noise with Some l => l | None => [] end \/ noise = None) by (unfold nz; destruct noise; auto).
  destruct noise as [l|].
  - destruct (Nat.le_gt_cases 2 (length l)) as [H2|H2].
    + destruct (P3 l eq_refl H2) as (outs & Q & Lo). exists outs. split; [exact EF|]. split; [discriminate|]. split; [discriminate|].
      intros l' Q'. injection Q' as <-. intros _. split; [exact Q|]. split; [exact Lo|].
      apply (C52_topo_noise_array rf ri typed (SWT_inverse t) (SWT_forward t) truth l args (op_results o) outs _ H2 Q).
    + exists []. split; [exact EF|]. split; [discriminate|]. split; [discriminate|]. intros l' Q'. injection Q' as <-. lia.
  - assert (SI : nz = NoNoise \/ nz = NNum 0 \/ nz = NArr [] \/ nz = NArr [0]) by (right; left; reflexivity).
    destruct (pa_npy args).
    + destruct (P2 SI eq_refl) as (outs & Q & Lo). exists outs. split; [exact EF|]. split; [discriminate|]. split; [auto|]. discriminate.
    + destruct (P1 SI eq_refl) as (outs & Q). exists outs. split; [exact EF|]. split; [auto|]. split; [discriminate|]. discriminate.
Qed.
Print Assumptions C53_topo_plot.

(** Phase velocities: every results file can be plotted *)
Theorem C53_phasevel_plot : forall G B (R0 : rng G) h5_open h5_data h5_attr (rd : B -> pv) lib junk junk' minv nsim eta c f inv iadj til0 til now elapsed fuel
    (w : pyworld vec vec C R G xval) (fs : @fsys B) W fs' b0 bls a b rf ri analysis truth pm obs args,
  let L := c_L c in let npix := (L * (2 * L - 1))%nat in let e := Phase nsim eta in
  reads_back rd h5_data h5_attr -> (1 <= L <= 256)%nat -> (0 <= pa_burn args < 2000)%Z ->
  good_library lib (wparams L 2 2 1 0) npix a b -> operator_of lib junk minv e L f ->
  multires_bandlimits L til = Ok (b0 :: bls) -> total_size (b0 :: bls) = (a + b)%nat -> full_shape truth L -> length (cm_buf truth) = npix ->
  (forall v, ri 256%nat v <> []) ->
  (forall v, length (snd (analysis v)) = (b0 * (2 * b0 - 1))%nat /\ (total_size bls <= length (fst (analysis v)))%nat /\ fst (analysis v) <> []) ->
  m_cols pm = npix -> length obs = m_rows pm ->
  run_experiment R0 h5_open h5_data h5_attr e c f inv iadj til0 til now elapsed fuel w fs = (W, fs', Ret tt) ->
  exists file outs, fs' (result_path c now) = Some file /\ phasevel_plot_file rd lib junk' rf ri til analysis truth pm obs args file = (outs, Ok tt).
Proof.
  intros G B R0 ho hd ha rd lib junk junk' minv nsim eta c f inv iadj til0 til now elapsed fuel w fs W fs' b0 bls a b rf ri analysis truth pm obs args
    L npix e RB HL HB GL OP EB TS Sh Lt Hri Han Hc Ho E.
  destruct (C53_readable G B R0 ho hd ha rd lib junk junk' minv e c f inv iadj til0 til now elapsed fuel w fs W fs' (b0 :: bls) a b (pa_burn args) RB
    (proj1 HL) HB GL OP EB TS E) as (file & o & t & EF & EO & ET & ON & RL & RS & RDb & RR).
  fold L in RL. destruct (C52_phasevel_completes rf ri (SWT_inverse t) (SWT_forward t) til analysis truth pm obs args (op_results o) b0 bls RS RDb) as (outs & Q);
    try (rewrite RL); auto; try apply HL.
  - intros b' I0. apply (proj2 (C28_range _ _ _ EB)) in I0. lia.
  - intros s I0. rewrite (RR s I0). apply le_n.
  - exists file, outs. split; [exact EF|]. unfold phasevel_plot_file, with_file. rewrite EO, ET. exact Q.
Qed.
Print Assumptions C53_phasevel_plot.

(** Weak lensing: every results file can be plotted, at any band limit *)
Theorem C53_lensing_plot : forall G B (R0 : rng G) h5_open h5_data h5_attr (rd : B -> pv) lib junk junk' minv c f inv iadj til0 til now elapsed fuel
    (w : pyworld vec vec C R G xval) (fs : @fsys B) W fs' bls a b rf ri S positions gal_b truth args,
  let L := c_L c in let npix := (L * (2 * L - 1))%nat in
  reads_back rd h5_data h5_attr -> (1 <= L)%nat -> (0 <= pa_burn args < 5000)%Z ->
  good_library lib (wparams L 2 2 1 0) npix a b -> operator_of lib junk minv Lens L f ->
  multires_bandlimits L til = Ok bls -> total_size bls = (a + b)%nat -> full_shape truth L -> length (cm_buf truth) = npix ->
  (forall L, positions L = (mw_thetas L, mw_phis L)) -> (forall k, length k = npix -> exists s, shear_of S L k s) ->
  run_experiment R0 h5_open h5_data h5_attr Lens c f inv iadj til0 til now elapsed fuel w fs = (W, fs', Ret tt) ->
  exists file outs, fs' (result_path c now) = Some file /\ lensing_plot_file rd lib junk' rf ri S positions gal_b truth args file = (outs, Ok tt).
Proof.
  intros G B R0 ho hd ha rd lib junk junk' minv c f inv iadj til0 til now elapsed fuel w fs W fs' bls a b rf ri S positions gal_b truth args
    L npix RB HL HB GL OP EB TS Sh Lt HP HS E.
  assert (HB' : (0 <= pa_burn args < Z.of_nat (samples_of Lens))%Z).
  { assert (Q : Z.of_nat (samples_of Lens) = 5000%Z) by (vm_compute; reflexivity). rewrite Q. exact HB. }
  destruct (C53_readable G B R0 ho hd ha rd lib junk junk' minv Lens c f inv iadj til0 til now elapsed fuel w fs W fs' bls a b (pa_burn args) RB
    HL HB' GL OP EB TS E) as (file & o & t & EF & EO & ET & ON & RL & RS & RDb & RR).
  fold L in RL. destruct (C52_lensing_completes rf ri S positions gal_b (SWT_inverse t) (SWT_forward t) truth args (op_results o) "synthesis" HP) as (_ & Q).
  - destruct Sh as (S1 & S2). rewrite S1, S2. exact Lt.
  - rewrite RL. exact Sh.
  - destruct (Q RS RDb) as (outs & EQ); [rewrite RL; exact HS|]. exists file, outs. split; [exact EF|].
    unfold lensing_plot_file, with_file. rewrite EO, ET. exact EQ.
Qed.
Print Assumptions C53_lensing_plot.

(** ** A concrete run: topography at band limit 2, with 6 pixels and 8
    coefficients (the last six of which are the image), a generator that always
    draws 0, and a file that keeps what it is given *)
Definition lib_8 : s2let :=
  let back := fun (_ : s2params) (w s : vec) => if Nat.eqb (length w) 6 && Nat.eqb (length s) 2 then Ok w else Raise ValueError in
  let to := fun (_ : s2params) (x : vec) => Ok (x, [RtoC 0; RtoC 0]) in
  mkS2let (fun _ _ _ => 0%Z) to back back to to back back to.

Lemma lib_8_good : good_library lib_8 (wparams 2 (3 / 2) 2 1 0) 6 6 2.
Proof.
  assert (PM : forall p, pair_maps (synthesis_adjoint_px2wav lib_8 p) 6 6 2) by (intros p x H; exists x, [RtoC 0; RtoC 0]; auto).
  split; [apply PM|]. split; [apply PM|]. split.
  - intros w s Hw Hs. exists w. cbn [synthesis_wav2px lib_8]. rewrite Hw, Hs. auto.
  - intros x w s fw fs gx Hx Hw Hs E1 E2. cbn [synthesis_wav2px synthesis_adjoint_px2wav lib_8] in E1, E2. rewrite Hw, Hs in E2. cbn [Nat.eqb andb] in E2.
    injection E1 as <- <-. injection E2 as <-.
    destruct s as [|s1 [|s2 [|]]]; try discriminate Hs. unfold cdot. cbn. ring.
Qed.

Definition cli_8 : cli := mkCli "myula" "synthesis" "." "0" (1 / 1000000) 1 2.
Definition rng_0 : rng unit := mkRng (fun n g => (repeat 0 n, g)) (fun n g => (repeat 0 n, g)) (fun g => (0, g)).

Lemma run_8 : forall noise (w : pyworld vec vec C R unit xval) (fs : @fsys pv), exists f W fs',
  operator_of lib_8 (fun _ => RtoC 0) (fun A => Ok A) (Topo noise 1 0) 2 f /\
  run_experiment rng_0 (fun _ => Ok tt) (fun _ v => Ok v) (fun v => Ok v) (Topo noise 1 0) cli_8 f (fun x => Ok x) (fun x => Ok x)
    (til_witness 1) (til_witness 1) "16112026-0900" "1" (Z.to_nat 49501) w fs = (W, fs', Ret tt).
Proof.
  intros noise w fs. set (e := Topo noise 1 0). destruct (weights_8 (exp_lmda e cli_8 * c_mu cli_8)) as (b & EB & LB).
  assert (EP : exp_prior e cli_8 (fun x => Ok x) (fun x => Ok x) (til_witness 1) (til_witness 1) = Ok (mkPrior (S2_prior b) (S2_proxf b)))
    by (unfold exp_prior, e; change (c_setting cli_8) with "synthesis"%string; change (c_L cli_8) with 2%nat; fold e; rewrite EB; reflexivity).
  destruct (C33_construction lib_8 (fun _ => RtoC 0) 2 (3 / 2) 2 1 0 false) as (C1 & _). destruct (C1 6%nat 2%nat (proj1 lib_8_good)) as (t & ET & _).
  destruct (C48_operator lib_8 (fun _ => RtoC 0) (fun A => Ok A) 2 "synthesis" (vzero 6) false (inl 1) t 6) as (f & EF & _);
    [apply repeat_length|discriminate|intros s Q; injection Q as <-; lra|exact ET|auto|]. cbv iota in EF.
  assert (OP : operator_of lib_8 (fun _ => RtoC 0) (fun A => Ok A) e 2 f) by (exists (vzero 6), false, (SPy (RtoC 1) false); split; [discriminate|exact EF]).
  destruct (C53_main_ends unit pv rng_0 (fun _ => Ok tt) (fun _ v => Ok v) (fun v => Ok v) lib_8 (fun _ => RtoC 0) (fun A => Ok A) e cli_8 f
    (fun x => Ok x) (fun x => Ok x) (til_witness 1) (til_witness 1) "16112026-0900" "1" (Z.to_nat 49501) w fs _ [1; 1; 2]%nat 6 2 lib_8_good OP EP)
    as ((RT & _) & _); [apply til_witness_bandlimits; lra|reflexivity|intros n g; split; apply repeat_length|cbn; lra|reflexivity|eauto|eauto|left; reflexivity|].
  specialize (RT ltac:(rewrite Z2Nat.id; [apply Z.le_refl|lia])).
  destruct (run_experiment _ _ _ _ _ _ _ _ _ _ _ _ _ _ _ _) as [[W fs'] r] eqn:ER. cbn [snd] in RT. subst r.
  exists f, W, fs'. split; [exact OP|exact ER].
Qed.

(** the run without noise is plotted to the end *)
Example C53_case : forall rf ri typed (w : pyworld vec vec C R unit xval) (fs : @fsys pv),
  let truth := mkCMap 2 3 (vzero 6) in let args := mkPlotArgs "." "" 10 false false in
  exists f W fs' file outs,
    run_experiment rng_0 (fun _ => Ok tt) (fun _ v => Ok v) (fun v => Ok v) (Topo None 1 0) cli_8 f (fun x => Ok x) (fun x => Ok x)
      (til_witness 1) (til_witness 1) "16112026-0900" "1" (Z.to_nat 49501) w fs = (W, fs', Ret tt) /\
    fs' "./myula_synthesis_16112026-0900_0.hdf5"%string = Some file /\
    topo_plot_file (fun v => v) lib_8 (fun _ => RtoC 1) rf ri typed truth args file = (outs, Ok tt).
Proof.
  intros rf ri typed w fs truth args. destruct (run_8 None w fs) as (f & W & fs' & OP & E).
  assert (RB : reads_back (fun v : pv => v) (fun _ v => Ok v) (fun v => Ok v)) by (split; intros v b _ Q; apply Ok_inj in Q; auto).
  destruct (C53_topo_plot unit pv rng_0 (fun _ => Ok tt) (fun _ v => Ok v) (fun v => Ok v) (fun v => v) lib_8 (fun _ => RtoC 0) (fun _ => RtoC 1) (fun A => Ok A) None 1 0 cli_8 f
      (fun x => Ok x) (fun x => Ok x) (til_witness 1) (til_witness 1) "16112026-0900" "1" (Z.to_nat 49501) w fs W fs' [1; 1; 2]%nat 6 2 rf ri typed truth args RB)
    as (file & outs & EF & P1 & _); try exact E; [cbn; lia|cbn; lia|exact lib_8_good|exact OP|apply til_witness_bandlimits; lra|reflexivity|split; reflexivity|reflexivity|].
  exists f, W, fs', file, outs. split; [exact E|]. split; [exact EF|]. apply P1; reflexivity.
Qed.

(** the same run with --makenoise cannot be plotted *)
Theorem C53_noise_refuted : exists noise f (w : pyworld vec vec C R unit xval) (fs : @fsys pv) W fs' file,
  let truth := mkCMap 2 3 (vzero 6) in let args := mkPlotArgs "." "" 10 false false in
  run_experiment rng_0 (fun _ => Ok tt) (fun _ v => Ok v) (fun v => Ok v) (Topo (Some noise) 1 0) cli_8 f (fun x => Ok x) (fun x => Ok x)
    (til_witness 1) (til_witness 1) "16112026-0900" "1" (Z.to_nat 49501) w fs = (W, fs', Ret tt) /\
  fs' (result_path cli_8 "16112026-0900") = Some file /\
  forall rf ri typed, exists outs, topo_plot_file (fun v => v) lib_8 (fun _ => RtoC 1) rf ri typed truth args file = (outs, Raise ValueError) /\
    forall label v, ~ In (OPrint label v) outs.
Proof.
  set (w := mkPy [] tt [] : pyworld vec vec C R unit xval). set (fs := fun _ : string => @None (h5file pv)). exists (repeat 1 6).
  destruct (run_8 (Some (repeat 1 6)) w fs) as (f & W & fs' & OP & E). exists f, w, fs, W, fs'.
  assert (RB : reads_back (fun v : pv => v) (fun _ v => Ok v) (fun v => Ok v)) by (split; intros v b _ Q; apply Ok_inj in Q; auto).
  assert (K : forall rf ri typed, exists file outs, fs' (result_path cli_8 "16112026-0900") = Some file /\
    topo_plot_file (fun v => v) lib_8 (fun _ => RtoC 1) rf ri typed (mkCMap 2 3 (vzero 6)) (mkPlotArgs "." "" 10 false false) file = (outs, Raise ValueError) /\
    forall label v, ~ In (OPrint label v) outs).
  { intros rf ri typed.
    destruct (C53_topo_plot unit pv rng_0 (fun _ => Ok tt) (fun _ v => Ok v) (fun v => Ok v) (fun v => v) lib_8 (fun _ => RtoC 0) (fun _ => RtoC 1) (fun A => Ok A) (Some (repeat 1 6)) 1 0 cli_8 f
      (fun x => Ok x) (fun x => Ok x) (til_witness 1) (til_witness 1) "16112026-0900" "1" (Z.to_nat 49501) w fs W fs' [1; 1; 2]%nat 6 2 rf ri typed
      (mkCMap 2 3 (vzero 6)) (mkPlotArgs "." "" 10 false false) RB)
      as (file & outs & EF & _ & _ & P1); try exact E; [cbn; lia|cbn; lia|exact lib_8_good|exact OP|apply til_witness_bandlimits; lra|reflexivity|split; reflexivity|reflexivity|].
    destruct (P1 _ eq_refl) as (Q & _ & N); [cbn; lia|]. exists file, outs. auto. }
  destruct (K (fun _ v => v) (fun _ v => v) ""%string) as (file & _ & EF & _). exists file. cbv zeta. split; [exact E|]. split; [exact EF|].
  intros rf ri typed. destruct (K rf ri typed) as (file' & outs & EF' & Q & N). rewrite EF in EF'. injection EF' as <-. exists outs. auto.
Qed.
Print Assumptions C53_noise_refuted.
