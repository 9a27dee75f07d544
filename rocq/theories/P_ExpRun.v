(** C51: running and saving in the three scripts of /repo/experiments. *)
From Coq Require Import List ZArith Lia Bool Reals Lra String.
From Coquelicot Require Import Coquelicot.
From Verif Require Import PyBase PyBaseFacts CVec Thresh ThreshSpec Utils OpSpec Quad QuadMain Prior PriorProof P_Prior Forward FwdProof MeasProof Sampler SamplerSpec
  Mcmc McmcSpec StepProof Objects ObjSpec ObjProof P_Objects P_Samplers P_Mcmc P_Works ExpRun ExpRunSpec.
Import ListNotations.
Open Scope R_scope.
Notation length := List.length.
Notation append := String.append.

Lemma params_eq : forall e c, exp_params e c =
  params_dict (vreal (lambda_of e (c_delta c))) (VStep (c_delta c)) (vreal (c_mu c)) (VInt (stages_of e))
    (Z.of_nat (samples_of e)) (burn_of e) 500 (vbool false) (report_of e) tracked.
Proof. intros [? ? ?|? ?|] c; reflexivity. Qed.

Lemma filename_eq : forall c now, path_join (c_outdir c) (append (exp_filename c now) ".hdf5") = result_path c now.
Proof.
  intros c now. unfold result_path, exp_filename. f_equal.
  assert (A : forall a b d, append (append a b) d = append a (append b d)).
  { induction a as [|x a IH]; intros b d; [reflexivity|]. cbn. f_equal. apply IH. }
  rewrite !A. reflexivity.
Qed.

Lemma kwargs_eq : forall e c n elapsed k,
  overridden (exp_params e c) (exp_kwargs e c n elapsed) k = saved_attr e c n elapsed k.
Proof.
  intros e c n elapsed k. rewrite params_eq. unfold overridden, exp_kwargs, saved_attr, params_dict.
  destruct e as [noise sigma africa|nsim eta|]; cbn [dget];
    repeat match goal with |- context [String.eqb k ?s] => destruct (String.eqb_spec k s) as [->|]; [reflexivity|] end; reflexivity.
Qed.

Lemma keys_nodup : forall e c n elapsed, NoDup (dkeys (exp_params e c)) /\ NoDup (dkeys (exp_kwargs e c n elapsed)).
Proof.
  intros e c n elapsed. rewrite params_eq. split; [|destruct e]; cbn [dkeys params_dict exp_kwargs map fst];
    repeat (constructor; [cbn; intuition discriminate|]); constructor.
Qed.

Section Main.
Context {G B : Type}.
Variables (R0 : rng G) (h5_open : string -> res unit) (h5_data : bool -> pv -> res B) (h5_attr : pv -> res B).
Notation run_experiment := (run_experiment R0 h5_open h5_data h5_attr).

(** everything after the regulariser has been built *)
Lemma experiment_main : forall e c f inv iadj til0 til now elapsed fuel (w : pyworld vec vec C R G xval) (fs : @fsys B) pr n k,
  exp_prior e c inv iadj til0 til = Ok pr -> fo_nparams f = Some n -> exp_kind (c_algo c) = Some k ->
  let o := mcmc_ops R0 f pr (script_num e c) in
  exists s0 h e0 self lp,
    new_sampler o (script_params e) (c_delta c) = Ok s0 /\
    hget h self = Some e0 /\ hget h lp = Some (exp_params e c) /\ lp <> self /\
    dget e0 "acceptance_trace" = None /\ dget e0 "deltas_trace" = None /\ dget e0 "preds" = None /\
    run_experiment e c f inv iadj til0 til now elapsed fuel w fs =
    (let (w', r) := run_kind k o (script_params e) fuel StartNone (mkWorld (set_out (py_out w) s0) (py_rng w)) in
     let hp := upd h self (write_inst e0 (w_inst w')) in
     let W := mkPy hp (w_rng w') (i_out (w_inst w')) in
     match r with
     | Ret _ => let (fs', r') := save_mcmc h5_open h5_data h5_attr fs hp self lp (c_outdir c)
                                 (exp_filename c now) (exp_kwargs e c n elapsed) in
                (W, fs', match r' with Ok _ => Ret tt | Raise ex => Exn ex end)
     | Exn ex => (W, fs, Exn ex)
     | NoFuel => (W, fs, NoFuel)
     end).
Proof.
  intros e c f inv iadj til0 til now elapsed fuel w fs pr n k EP EN EK o.
  unfold ExpRun.run_experiment. rewrite EP, EN, EK.
  set (lp := length (py_heap w)). set (w0 := mkPy (py_heap w ++ [exp_params e c]) (py_rng w) (py_out w)).
  assert (HL : hget (py_heap w0) lp = Some (exp_params e c)).
  { unfold hget, w0, lp. cbn [py_heap]. rewrite nth_error_app2, Nat.sub_diag by lia. reflexivity. }
  rewrite params_eq in HL.
  assert (NS : exists s0, new_sampler o (script_params e) (c_delta c) = Ok s0).
  { apply C44_new_sampler_exists. cbn. lia. }
  destruct NS as (s0 & NS).
  assert (CO := C44_construction vec vec C R G start_point xval o (fun _ => o) w0 [] (VOther (XForward f)) (VOther (XPrior pr)) lp
    _ _ _ _ _ _ _ _ _ _ HL (fun _ _ _ _ Q => match Q with end)).
  cbn [session fold_left] in CO.
  replace (o_zeroK o) with (RtoC 0) in CO by reflexivity.
  replace (o_zeroD o) with (vzero (length (d_val (fo_data f)))) in CO by reflexivity.
  replace (o_zeroV o) with (vzero n) in CO by (unfold o; cbn [mcmc_ops o_zeroV]; rewrite EN; reflexivity).
  destruct (PxMCMC_init (RtoC 0) (vzero (length (d_val (fo_data f)))) (vzero n) (py_heap w0)
     (VOther (XForward f)) (VOther (XPrior pr)) lp) as [[h self]|ex] eqn:EI; [|unfold script_params in NS; congruence].
  destruct CO as (e0 & s1 & HS & RP & NS1 & RI & DF & DP & DL & DM & DS & DC & OLD & FRESH).
  assert (s1 = s0) by (apply Ok_inj; rewrite <- NS, <- NS1; reflexivity). subst s1.
  destruct (PxMCMC_init_object _ _ _ _ _ _ _ _ _ _ _ _ _ _ _ _ _ _ _ HL EI) as (_ & e1 & HS1 & DG).
  assert (e1 = e0) by congruence. subst e1.
  assert (NUM : num_of_dict e0 = script_num e c).
  { unfold num_of_dict, real_at, int_at, bool_at, script_num, pv in *. rewrite DL, DM, DS, DC. reflexivity. }
  exists s0, h, e0, self, lp. split; [exact NS|]. split; [exact HS|].
  split; [rewrite params_eq; apply OLD; exact HL|]. split; [intros ->; congruence|].
  split; [rewrite DG; reflexivity|]. split; [rewrite DG; reflexivity|]. split; [rewrite DG; reflexivity|].
  rewrite HS, NUM.
  assert (KI : kind_init k (script_num e c) = Ok tt).
  { destruct k; try reflexivity. cbn [kind_init]. destruct (proj2 (proj2 (C16_construction (script_num e c)))) as (l & -> & _); [|reflexivity].
    cbn. destruct e; cbn; lia. }
  rewrite KI. unfold run_sampler. cbn [py_heap py_out py_rng]. rewrite HS, RP, RI, NUM. fold o. fold (script_params e).
  destruct (run_kind k o (script_params e) fuel StartNone (mkWorld (set_out (py_out w) s0) (py_rng w))) as [w' r].
  destruct r as [[]|ex|]; reflexivity.
Qed.

(** a script that came to its end *)
Lemma experiment_saved : forall e c f inv iadj til0 til now elapsed fuel (w : pyworld vec vec C R G xval) (fs : @fsys B) W fs',
  run_experiment e c f inv iadj til0 til now elapsed fuel w fs = (W, fs', Ret tt) ->
  exists pr n k s0 w1 file,
    exp_prior e c inv iadj til0 til = Ok pr /\ fo_nparams f = Some n /\ exp_kind (c_algo c) = Some k /\
    let o := mcmc_ops R0 f pr (script_num e c) in
    new_sampler o (script_params e) (c_delta c) = Ok s0 /\
    run_kind k o (script_params e) fuel StartNone (mkWorld (set_out (py_out w) s0) (py_rng w)) = (w1, Ret tt) /\
    py_rng W = w_rng w1 /\
    fs' (result_path c now) = Some file /\ (forall p, p <> result_path c now -> fs' p = fs p) /\
    (forall a, holds h5_attr (h5_attrs file) a (saved_attr e c n elapsed a)) /\
    (forall d, holds (fun bv => h5_data (fst bv) (snd bv)) (h5_datasets file) d
       (if String.eqb d "logposterior" then option_map (fun l => (false, VScal l)) (i_logPi (w_inst w1))
        else if String.eqb d "chain" then option_map (fun l => (false, VChain l)) (i_chain (w_inst w1))
        else if String.eqb d "L2s" then option_map (fun l => (false, VScal l)) (i_L2s (w_inst w1))
        else if String.eqb d "priors" then option_map (fun l => (false, VScal l)) (i_priors (w_inst w1))
        else if String.eqb d "acceptances" then option_map (fun l => (true, VAcc l)) (i_acc (w_inst w1))
        else if String.eqb d "deltas" then option_map (fun l => (false, VDeltas l)) (i_deltas (w_inst w1))
        else None)).
Proof.
  intros e c f inv iadj til0 til now elapsed fuel w fs W fs' E.
  destruct (exp_prior e c inv iadj til0 til) as [pr|ex] eqn:EP; [|unfold ExpRun.run_experiment in E; rewrite EP in E; discriminate].
  destruct (fo_nparams f) as [n|] eqn:EN; [|unfold ExpRun.run_experiment in E; rewrite EP, EN in E; discriminate].
  destruct (exp_kind (c_algo c)) as [k|] eqn:EK; [|unfold ExpRun.run_experiment in E; rewrite EP, EN, EK in E; discriminate].
  destruct (experiment_main e c f inv iadj til0 til now elapsed fuel w fs pr n k EP EN EK) as
    (s0 & h & e0 & self & lp & NS & HS & HL & NE & A0 & D0 & P0 & EQ).
  rewrite EQ in E. clear EQ. set (o := mcmc_ops R0 f pr (script_num e c)) in *.
  destruct (run_kind k o (script_params e) fuel StartNone (mkWorld (set_out (py_out w) s0) (py_rng w))) as [w1 r] eqn:ER.
  destruct r as [[]|ex|]; [|discriminate|discriminate].
  set (hp := upd h self (write_inst e0 (w_inst w1))) in *.
  assert (LS : (self < length h)%nat) by (apply nth_error_Some; unfold hget in HS; congruence).
  assert (HS' : hget hp self = Some (write_inst e0 (w_inst w1))).
  { unfold hget, hp. rewrite ObjProof.nth_error_upd, Nat.eqb_refl by exact LS. reflexivity. }
  assert (HL' : hget hp lp = Some (exp_params e c)).
  { unfold hget, hp. rewrite ObjProof.nth_error_upd, (proj2 (Nat.eqb_neq _ _)) by auto. exact HL. }
  destruct (save_mcmc h5_open h5_data h5_attr fs hp self lp (c_outdir c) (exp_filename c now) (exp_kwargs e c n elapsed)) as [fs1 r'] eqn:ES.
  cbv zeta in E. fold hp in E. rewrite ES in E. destruct r' as [[]|ex]; [|discriminate]. injection E as <- <-.
  destruct (keys_nodup e c n elapsed) as (ND1 & ND2).
  destruct (C18_contents vec vec C R xval B h5_open h5_data h5_attr fs hp self lp _ _ _ _ _ fs1 HS' HL' ND1 ND2 ES) as (file & F1 & F2 & F3 & F4).
  rewrite filename_eq in F1, F2.
  exists pr, n, k, s0, w1, file. split; [reflexivity|]. split; [reflexivity|]. split; [reflexivity|]. fold o. cbv zeta.
  split; [exact NS|]. split; [exact ER|]. split; [reflexivity|]. split; [exact F1|]. split; [exact F2|].
  split; [intros a; rewrite <- kwargs_eq; apply F4|].
  assert (PR : i_preds (w_inst w1) = None).
  { assert (SH := run_same_shape k o (script_params e) fuel StartNone (mkWorld (set_out (py_out w) s0) (py_rng w))). rewrite ER in SH.
    destruct SH as (_ & _ & _ & SH & _). destruct (C44_new_sampler _ _ _ _ _ _ _ _ _ _ NS) as (_ & _ & _ & Q & _).
    cbn [fst w_inst set_out i_preds] in SH. rewrite Q in SH. cbn in SH. destruct (i_preds (w_inst w1)); [discriminate|reflexivity]. }
  intros d. specialize (F3 d). unfold dataset_source in F3.
  assert (T : forall a i1 (v : option pv), dget (write_inst e0 (w_inst w1)) a = v ->
    holds (h5_data i1) (h5_datasets file) d (dget (write_inst e0 (w_inst w1)) a) ->
    holds (fun bv : bool * pv => h5_data (fst bv) (snd bv)) (h5_datasets file) d (option_map (fun x => (i1, x)) v)).
  { intros a i1 v <-. destruct (dget (write_inst e0 (w_inst w1)) a) as [x|]; exact (fun H => H). }
  assert (SH := run_same_shape k o (script_params e) fuel StartNone (mkWorld (set_out (py_out w) s0) (py_rng w))). rewrite ER in SH.
  destruct SH as (S1 & S2 & S3 & _ & S5). destruct (C44_new_sampler _ _ _ _ _ _ _ _ _ _ NS) as (Q1 & Q2 & Q3 & _ & Q5 & _).
  cbn [fst w_inst set_out i_logPi i_L2s i_priors i_chain] in S1, S2, S3, S5. rewrite Q1 in S1. rewrite Q2 in S2. rewrite Q3 in S3. rewrite Q5 in S5.
  cbn in S1, S2, S3, S5.
  destruct (String.eqb d "logposterior").
  { destruct (i_logPi (w_inst w1)) eqn:QQ; [|discriminate]. apply (T "logPi"%string false (Some (VScal l))); [rewrite dget_write; cbn; rewrite QQ; reflexivity|exact F3]. }
  destruct (String.eqb d "predictions") eqn:HD.
  { apply String.eqb_eq in HD. rewrite HD in *. cbn [String.eqb Ascii.eqb Bool.eqb]. rewrite dget_write in F3. cbn in F3. rewrite PR, P0 in F3. exact F3. }
  destruct (String.eqb d "chain").
  { destruct (i_chain (w_inst w1)) eqn:QQ; [|discriminate]. apply (T "chain"%string false (Some (VChain l))); [rewrite dget_write; cbn; rewrite QQ; reflexivity|exact F3]. }
  destruct (String.eqb d "L2s").
  { destruct (i_L2s (w_inst w1)) eqn:QQ; [|discriminate]. apply (T "L2s"%string false (Some (VScal l))); [rewrite dget_write; cbn; rewrite QQ; reflexivity|exact F3]. }
  destruct (String.eqb d "priors").
  { destruct (i_priors (w_inst w1)) eqn:QQ; [|discriminate]. apply (T "priors"%string false (Some (VScal l))); [rewrite dget_write; cbn; rewrite QQ; reflexivity|exact F3]. }
  destruct (String.eqb d "acceptances").
  { apply (T "acceptance_trace"%string true _ eq_refl) in F3. rewrite dget_write in F3. cbn [String.eqb Ascii.eqb Bool.eqb] in F3.
    rewrite A0 in F3. destruct (i_acc (w_inst w1)); exact F3. }
  destruct (String.eqb d "deltas").
  { apply (T "deltas_trace"%string false _ eq_refl) in F3. rewrite dget_write in F3. cbn [String.eqb Ascii.eqb Bool.eqb] in F3.
    rewrite D0 in F3. destruct (i_deltas (w_inst w1)); exact F3. }
  exact F3.
Qed.

(** rows from a list of recorded entries *)
Lemma rows_of_records : forall f pr q n N s0 s1 l (h5d : bool -> pv -> res B) (file : h5file B) prm delta,
  let o := mcmc_ops R0 f pr q in
  n_complex q = false -> fo_nparams f = Some n -> new_sampler o prm delta = Ok s0 -> p_track prm = tracked ->
  p_nsamples prm = Z.of_nat N -> length l = N -> records o s0 s1 l ->
  (forall j e, nth_error l j = Some e -> o_forward o (e_X e) = Ok (e_D e) /\ o_logpi o (e_X e) (e_D e) = Ok (snd e)) ->
  (forall a, i_logPi s1 = Some a -> holds (h5d false) (h5_datasets file) "logposterior" (Some (VScal a))) ->
  (forall a, i_chain s1 = Some a -> holds (h5d false) (h5_datasets file) "chain" (Some (VChain a))) ->
  (forall a, i_L2s s1 = Some a -> holds (h5d false) (h5_datasets file) "L2s" (Some (VScal a))) ->
  (forall a, i_priors s1 = Some a -> holds (h5d false) (h5_datasets file) "priors" (Some (VScal a))) ->
  forall X, (forall j e, nth_error l j = Some e -> X j = e_X e) -> file_rows h5d file f pr q n N X.
Proof.
  intros f pr q n N s0 s1 l h5d file prm delta o QC EN NS TR PN LL REC OK H1 H2 H3 H4 X HX.
  destruct (C44_new_sampler _ _ _ _ _ _ _ _ _ _ NS) as (Q1 & Q2 & Q3 & _ & Q5 & _).
  rewrite TR in Q1, Q2, Q3, Q5. cbn in Q1, Q2, Q3, Q5. rewrite PN, Nat2Z.id in Q1, Q2, Q3, Q5.
  destruct REC as (R1 & R2 & R3 & _ & R5). rewrite Q1 in R1. rewrite Q2 in R2. rewrite Q3 in R3. rewrite Q5 in R5.
  assert (RA : forall (A A' : Type) (cast : A -> res A') (g : entry vec vec C -> A) z (arr : option (list A')),
    rec_arr cast (map g l) (Some (repeat z N)) arr -> exists a, arr = Some a /\ length a = N /\
      forall j e, nth_error l j = Some e -> exists r, nth_error a j = Some r /\ cast (g e) = Ok r).
  { intros A A' cast g z [a|] Ha; [|destruct Ha]. destruct Ha as (rows & F2 & _ & ->).
    exists rows. rewrite map_length, LL. rewrite skipn_all2 by (rewrite repeat_length; lia). rewrite app_nil_r. split; [reflexivity|].
    assert (LR := SamplerFacts.Forall2_length _ _ _ F2). rewrite map_length in LR. split; [lia|].
    clear - F2. intros j e Hj. revert rows j F2 Hj. induction l as [|e0 l IH]; intros rows j F2 Hj; [destruct j; discriminate|].
    inversion F2 as [|? r ? rows' E1 E2]; subst. destruct j as [|j].
    - injection Hj as <-. exists r. split; [reflexivity|exact E1].
    - apply (IH rows' j E2 Hj). }
  destruct (RA _ _ _ _ _ _ R1) as (lps & A1 & L1 & N1). destruct (RA _ _ _ _ _ _ R2) as (l2s & A2 & L2 & N2).
  destruct (RA _ _ _ _ _ _ R3) as (prs & A3 & L3 & N3). destruct (RA _ _ _ _ _ _ R5) as (chain & A5 & L5 & N5).
  exists chain, lps, l2s, prs. split; [split; [apply H2; exact A5|exact L5]|]. split; [split; [apply H1; exact A1|exact L1]|].
  split; [split; [apply H3; exact A2|exact L2]|]. split; [split; [apply H4; exact A3|exact L3]|].
  intros j Hj. destruct (nth_error l j) as [en|] eqn:El; [|apply nth_error_None in El; lia].
  destruct (OK j en El) as (O1 & O2). rewrite (HX j en El).
  destruct (N1 j en El) as (r1 & B1 & C1). destruct (N2 j en El) as (r2 & B2 & C2). destruct (N3 j en El) as (r3 & B3 & C3).
  destruct (N5 j en El) as (r5 & B5 & C5). apply Ok_inj in C1, C2, C3.
  exists (e_D en), (e_logPi en), (e_L2 en), (e_prior en), r5. split; [exact O1|].
  split; [unfold e_logPi, e_L2, e_prior; destruct (snd en) as [[? ?] ?]; exact O2|]. split; [exact B5|].
  split; [|split; [rewrite B1, <- C1; reflexivity|split; [rewrite B2, <- C2; reflexivity|rewrite B3, <- C3; reflexivity]]].
  apply store_row_assigned. unfold o in C5. cbn [mcmc_ops o_rowV] in C5. rewrite EN, QC in C5. exact C5.
Qed.
End Main.

Lemma trans_forward : forall G (R0 : rng G) f pr q (T : R -> vec * vec * G -> vec * vec * G -> Prop) delta s tr,
  (T = myula_trans (mcmc_ops R0 f pr q) \/ T = skrock_trans (mcmc_ops R0 f pr q)) ->
  path (T delta) s tr -> forall j x d g, nth_error tr j = Some (x, d, g) -> fo_forward f x = Ok d.
Proof.
  intros G R0 f pr q T delta s tr HT HP. induction HP as [s|s s' l T1 HP IH]; intros j x d g E; [destruct j; discriminate|].
  destruct j as [|j]; [|eapply IH; exact E]. injection E as ->. destruct s as [[x0 d0] g0].
  destruct HT as [-> | ->]; cbn in T1.
  - destruct T1 as (gr & p & _ & _ & _ & T1). exact T1.
  - destruct T1 as (_ & T1). exact T1.
Qed.

Lemma iterations_eq : forall e, Z.of_nat (total_iters (burn_of e) 500 (samples_of e)) = iterations e.
Proof.
  intros e. assert (S : exists m, samples_of e = S m /\ (Z.of_nat m = match e with Topo _ _ _ => 99 | Phase _ _ => 1999 | Lens => 4999 end)%Z).
  { destruct e; [exists 99%nat|exists 1999%nat|exists 4999%nat]; split; reflexivity. }
  destruct S as (m & -> & Em).
  destruct (C01_schedule_formula (burn_of e) 500 m 0 ltac:(destruct e; cbn; lia) ltac:(lia)) as (_ & _ & _ & E & _).
  rewrite E, Em. destruct e; reflexivity.
Qed.

Lemma kinds : forall a k, exp_kind a = Some k ->
  (a = "myula"%string /\ k = KMyula) \/ (a = "pxmala"%string /\ k = KPxmala true) \/ (a = "skrock"%string /\ k = KSkrock).
Proof.
  intros a k E. unfold exp_kind in E.
  destruct (String.eqb_spec a "myula"); [injection E as <-; auto|].
  destruct (String.eqb_spec a "pxmala"); [injection E as <-; auto|].
  destruct (String.eqb_spec a "skrock"); [injection E as <-; auto|discriminate].
Qed.

Lemma sized_out : forall (s : inst vec vec C R) out n, sized s n -> sized (set_out out s) n.
Proof. intros s out n H. exact H. Qed.

(** ** The file written by a script that came to its end *)

Theorem C51_saved : forall G B (R0 : rng G) h5_open h5_data h5_attr e c f inv iadj til0 til now elapsed fuel
    (w : pyworld vec vec C R G xval) (fs : @fsys B) W fs',
  run_experiment R0 h5_open h5_data h5_attr e c f inv iadj til0 til now elapsed fuel w fs = (W, fs', Ret tt) ->
  exists pr n file, exp_prior e c inv iadj til0 til = Ok pr /\ fo_nparams f = Some n /\
    fs' (result_path c now) = Some file /\ (forall p, p <> result_path c now -> fs' p = fs p) /\
    (forall a, holds h5_attr (h5_attrs file) a (saved_attr e c n elapsed a)) /\
    (forall d, dget (h5_datasets file) d <> None <->
       In d ["logposterior"; "chain"; "L2s"; "priors"]%string \/
       (c_algo c = "pxmala"%string /\ In d ["acceptances"; "deltas"]%string)) /\
    exists X, file_rows h5_data file f pr (script_num e c) n (samples_of e) X /\
    let o := mcmc_ops R0 f pr (script_num e c) in
    (** MYULA and SKROCK: row j is iterate burn + 500 j of the chain *)
    (forall T, (c_algo c = "myula"%string /\ T = myula_trans o) \/ (c_algo c = "skrock"%string /\ T = skrock_trans o) ->
       exists s tr, starts o StartNone (py_rng w) s /\ path (T (c_delta c)) s tr /\
         Z.of_nat (length tr) = iterations e /\ py_rng W = snd (last tr s) /\
         forall j, (j < samples_of e)%nat -> exists d g,
           nth_error tr (Z.to_nat (burn_of e + 500 * Z.of_nat j)) = Some (X j, d, g)) /\
    (** PxMALA: row j is the j-th accepted iterate on the grid; the traces are saved *)
    (c_algo c = "pxmala"%string ->
       exists x g0 (tr : list (bool * (vec * R * G))) idx, mh_starts o StartNone (py_rng w) x g0 /\ mh_path o true 0 (x, c_delta c, g0) tr /\
         accepted_on_grid (burn_of e) 500 tr idx /\ length idx = samples_of e /\
         (forall j, (j < samples_of e)%nat -> exists acc d g, nth_error tr (nth j idx O) = Some (acc, (X j, d, g))) /\
         let accs := map (fun p : bool * (vec * R * G) => if fst p then 1%Z else 0%Z) tr in
         let ds := map (fun p : bool * (vec * R * G) => snd (fst (snd p))) tr in
         holds (h5_data true) (h5_datasets file) "acceptances" (Some (VAcc accs)) /\
         holds (h5_data false) (h5_datasets file) "deltas" (Some (VDeltas (c_delta c :: ds))) /\
         (0 < lambda_of e (c_delta c) -> tuned_history (lambda_of e (c_delta c)) (c_delta c) accs ds) /\
         py_rng W = snd (snd (last tr (true, (x, c_delta c, g0))))).
Proof.
  intros G B R0 ho hd ha e c f inv iadj til0 til now elapsed fuel w fs W fs' E.
  destruct (experiment_saved R0 ho hd ha e c f inv iadj til0 til now elapsed fuel w fs W fs' E) as
    (pr & n & k & s0 & w1 & file & EP & EN & EK & NS & ER & RNG & F1 & F2 & F3 & F4). clear E.
  exists pr, n, file. split; [exact EP|]. split; [exact EN|]. split; [exact F1|]. split; [exact F2|]. split; [exact F3|].
  set (o := mcmc_ops R0 f pr (script_num e c)) in *.
  destruct (C44_new_sampler _ _ _ _ _ _ _ _ _ _ NS) as (Q1 & Q2 & Q3 & Q4 & Q5 & Q6 & _ & SZ).
  cbn [script_params p_nsamples p_track] in SZ, Q1, Q2, Q3, Q5. rewrite Nat2Z.id in SZ, Q1, Q2, Q3, Q5.
  cbn [tracked str_in existsb String.eqb Ascii.eqb Bool.eqb orb] in Q1, Q2, Q3, Q5.
  assert (SH := run_same_shape k o (script_params e) fuel StartNone (mkWorld (set_out (py_out w) s0) (py_rng w))). rewrite ER in SH.
  destruct SH as (S1 & S2 & S3 & _ & S5). cbn [fst w_inst set_out i_logPi i_L2s i_priors i_chain] in S1, S2, S3, S5.
  rewrite Q1 in S1. rewrite Q2 in S2. rewrite Q3 in S3. rewrite Q5 in S5. cbn [olen option_map] in S1, S2, S3, S5.
  destruct (i_logPi (w_inst w1)) as [lps|] eqn:E1; [|discriminate S1]. destruct (i_L2s (w_inst w1)) as [l2s|] eqn:E2; [|discriminate S2].
  destruct (i_priors (w_inst w1)) as [prs|] eqn:E3; [|discriminate S3]. destruct (i_chain (w_inst w1)) as [ch|] eqn:E5; [|discriminate S5].
  clear S1 S2 S3 S5. cbn [option_map] in F4.
  assert (H1 : forall a, i_logPi (w_inst w1) = Some a -> holds (hd false) (h5_datasets file) "logposterior" (Some (VScal a)))
    by (intros a Ha; rewrite E1 in Ha; injection Ha as <-; exact (F4 "logposterior"%string)).
  assert (H2 : forall a, i_chain (w_inst w1) = Some a -> holds (hd false) (h5_datasets file) "chain" (Some (VChain a)))
    by (intros a Ha; rewrite E5 in Ha; injection Ha as <-; exact (F4 "chain"%string)).
  assert (H3 : forall a, i_L2s (w_inst w1) = Some a -> holds (hd false) (h5_datasets file) "L2s" (Some (VScal a)))
    by (intros a Ha; rewrite E2 in Ha; injection Ha as <-; exact (F4 "L2s"%string)).
  assert (H4 : forall a, i_priors (w_inst w1) = Some a -> holds (hd false) (h5_datasets file) "priors" (Some (VScal a)))
    by (intros a Ha; rewrite E3 in Ha; injection Ha as <-; exact (F4 "priors"%string)).
  set (w0 := mkWorld (set_out (py_out w) s0) (py_rng w)) in *.
  assert (SZ' : sized (w_inst w0) (samples_of e)) by exact SZ.
  assert (RR : forall l, records o (w_inst w0) (w_inst w1) l -> records o s0 (w_inst w1) l) by (intros l H; exact H).
  assert (T0 : i_acc s0 = None /\ i_deltas s0 = None).
  { clear - NS. unfold new_sampler in NS. cbn [script_params p_track tracked str_in existsb String.eqb Ascii.eqb Bool.eqb orb opt_array p_nsamples] in NS.
    destruct (np_zeros (Z.of_nat (samples_of e)) (o_zeroK o)); cbn [rbind] in NS; [|discriminate].
    destruct (np_zeros (Z.of_nat (samples_of e)) (o_zeroV o)); cbn [rbind] in NS; [|discriminate].
    apply Ok_inj in NS. subst s0. split; reflexivity. }
  assert (NIL : (forall t, k <> KPxmala t) -> i_acc (w_inst w1) = None /\ i_deltas (w_inst w1) = None).
  { intros Hk. assert (ST := run_same_traces k o (script_params e) fuel StartNone w0 Hk). rewrite ER in ST.
    destruct ST as (A & D & _). cbn [fst] in A, D. rewrite A, D. exact T0. }
  assert (DS : forall d, dget (h5_datasets file) d <> None <->
       In d ["logposterior"; "chain"; "L2s"; "priors"]%string \/
       (c_algo c = "pxmala"%string /\ In d ["acceptances"; "deltas"]%string)).
  { intros d. assert (Hd := F4 d).
    assert (PX : c_algo c = "pxmala"%string <-> i_acc (w_inst w1) <> None /\ i_deltas (w_inst w1) <> None).
    { destruct (kinds _ _ EK) as [(K1 & ->)|[(K1 & ->)|(K1 & ->)]].
      - destruct NIL as (N1 & N2); [discriminate|]. rewrite K1, N1, N2. split; [discriminate|intros (A & _); destruct (A eq_refl)].
      - assert (TE := proj2 (run_traces_exist (KPxmala true) o (script_params e) fuel StartNone w0) true eq_refl). rewrite ER in TE.
        split; [intros _; exact TE|intros _; exact K1].
      - destruct NIL as (N1 & N2); [discriminate|]. rewrite K1, N1, N2. split; [discriminate|intros (A & _); destruct (A eq_refl)]. }
    assert (AD : i_acc (w_inst w1) = None <-> i_deltas (w_inst w1) = None).
    { destruct (kinds _ _ EK) as [(K1 & ->)|[(K1 & ->)|(K1 & ->)]].
      - destruct NIL as (N1 & N2); [discriminate|]. rewrite N1, N2. tauto.
      - destruct (proj1 PX K1). tauto.
      - destruct NIL as (N1 & N2); [discriminate|]. rewrite N1, N2. tauto. }
    rewrite PX. unfold holds in Hd. cbn [In].
    destruct (String.eqb_spec d "logposterior") as [Ed|M1]; [rewrite Ed in Hd |- *; destruct Hd as (b & _ & ->); split; [intros _; left; tauto|discriminate]|].
    destruct (String.eqb_spec d "chain") as [Ed|M2]; [rewrite Ed in Hd |- *; destruct Hd as (b & _ & ->); split; [intros _; left; tauto|discriminate]|].
    destruct (String.eqb_spec d "L2s") as [Ed|M3]; [rewrite Ed in Hd |- *; destruct Hd as (b & _ & ->); split; [intros _; left; tauto|discriminate]|].
    destruct (String.eqb_spec d "priors") as [Ed|M4]; [rewrite Ed in Hd |- *; destruct Hd as (b & _ & ->); split; [intros _; left; tauto|discriminate]|].
    destruct (String.eqb_spec d "acceptances") as [Ed|M5].
    { rewrite Ed in Hd |- *. destruct (i_acc (w_inst w1)) as [a|]; cbn [option_map] in Hd.
      - destruct Hd as (b & _ & ->). split; [intros _; right|discriminate]. split; [|auto]. split; [discriminate|]. intros A. apply AD in A. discriminate.
      - rewrite Hd. split; [intros A; destruct (A eq_refl)|]. intros [[A|[A|[A|[A|[]]]]]|((A & _) & _)]; try discriminate A. destruct (A eq_refl). }
    destruct (String.eqb_spec d "deltas") as [Ed|M6].
    { rewrite Ed in Hd |- *. destruct (i_deltas (w_inst w1)) as [a|]; cbn [option_map] in Hd.
      - destruct Hd as (b & _ & ->). split; [intros _; right|discriminate]. split; [|auto]. split; [|discriminate]. intros A. apply AD in A. discriminate.
      - rewrite Hd. split; [intros A; destruct (A eq_refl)|]. intros [[A|[A|[A|[A|[]]]]]|((_ & A) & _)]; try discriminate A. destruct (A eq_refl). }
    rewrite Hd. split; [intros A; destruct (A eq_refl)|].
    intros [[A|[A|[A|[A|[]]]]]|(_ & [A|[A|[]]])]; symmetry in A; contradiction. }
  split; [exact DS|].
  assert (IT := iterations_eq e).
  destruct (kinds _ _ EK) as [(K1 & ->)|[(K1 & ->)|(K1 & ->)]]; cbn [run_kind] in ER.
  - destruct (C01_myula_schedule _ _ _ _ _ _ o (script_params e) fuel StartNone w0 w1 (samples_of e) SZ' eq_refl ER) as
      (s & tr & l & A1 & A2 & A3 & A4 & A5 & A6 & A7 & A8).
    change (i_delta (w_inst w0)) with (i_delta s0) in A2. rewrite Q6 in A2. cbn [script_params p_nburn p_ngap] in A3, A8.
    assert (PT : forall j en, nth_error l j = Some en -> exists d g, nth_error tr (Z.to_nat (burn_of e + 500 * Z.of_nat j)) = Some (e_X en, d, g) /\ d = e_D en).
    { intros j en Hj. destruct (A8 j en Hj) as ([[x d] g] & B1 & B2).
      destruct (C01_schedule_formula (burn_of e) 500 0 j ltac:(destruct e; cbn; lia) ltac:(lia)) as (FJ & _).
      rewrite FJ in B1. replace (burn_of e + Z.of_nat j * 500)%Z with (burn_of e + 500 * Z.of_nat j)%Z in B1 by lia.
      destruct en as [[x' d'] t]. destruct B2 as (-> & ->). exists d, g. split; [exact B1|reflexivity]. }
    exists (fun j => match nth_error l j with Some en => e_X en | None => [] end).
    split; [|split].
    + apply (rows_of_records R0 f pr (script_num e c) n (samples_of e) s0 (w_inst w1) l hd file (script_params e) (c_delta c)); auto.
      * intros j en Hj. destruct (PT j en Hj) as (d & g & B1 & ->). split; [exact (trans_forward G R0 f pr (script_num e c) _ _ _ _ (or_introl eq_refl) A2 _ _ _ _ B1)|].
        rewrite Forall_forall in A6. assert (B2 := A6 en (nth_error_In _ _ Hj)). destruct en as [[x d] t]. exact B2.
      * intros j en Hj. rewrite Hj. reflexivity.
    + intros T [(_ & ->)|(K2 & _)]; [|congruence]. exists s, tr. split; [exact A1|]. split; [exact A2|]. split; [congruence|]. split; [rewrite RNG; exact A4|].
      intros j Hj. destruct (nth_error l j) as [en|] eqn:El; [|apply nth_error_None in El; lia].
      destruct (PT j en El) as (d & g & B1 & _). eauto.
    + intros K2. congruence.
  - destruct (C03_pxmala_refines_reference _ _ _ _ _ _ o (script_params e) true fuel StartNone w0 w1 (samples_of e) SZ' eq_refl ER) as
      (kk & _ & x & g0 & tr & idx & l & A1 & A2 & A2' & A3 & A5 & A4 & A6 & T1 & T2 & xl & T4).
    change (i_delta (w_inst w0)) with (i_delta s0) in A2, T2, T4. rewrite Q6 in A2, T2, T4. cbn [script_params p_nburn p_ngap] in A3.
    assert (LI := SamplerFacts.Forall2_length _ _ _ A4).
    assert (PT : forall j en, nth_error l j = Some en -> mh_entry o tr (nth j idx O) en).
    { clear - A4. induction A4 as [|i en idx l M A4 IH]; intros [|j] en' Hj; try discriminate; [injection Hj as <-; exact M|]. exact (IH j en' Hj). }
    exists (fun j => match nth_error l j with Some en => e_X en | None => [] end).
    split; [|split].
    + apply (rows_of_records R0 f pr (script_num e c) n (samples_of e) s0 (w_inst w1) l hd file (script_params e) (c_delta c)); auto.
      * intros j en Hj. destruct (PT j en Hj) as (B1 & B2 & _). auto.
      * intros j en Hj. rewrite Hj. reflexivity.
    + intros T [(K2 & _)|(K2 & _)]; congruence.
    + intros _.
      assert (TB : map (fun p : bool * (vec * R * G) => b2z (fst p)) tr = map (fun p : bool * (vec * R * G) => if fst p then 1%Z else 0%Z) tr)
        by (apply map_ext; intros [[] ?]; reflexivity).
      assert (T1' := eq_trans T1 (f_equal Some TB)). clear T1. rename T1' into T1. exists x, g0, tr, idx. split; [exact A1|]. split; [exact A2|]. split; [exact A3|]. split; [congruence|].
      split; [|cbv zeta; split; [|split; [|split; [|rewrite RNG; exact (eq_sym (f_equal snd T4))]]]].
      * intros j Hj. destruct (nth_error l j) as [en|] eqn:El; [|apply nth_error_None in El; lia].
        destruct (PT j en El) as (_ & _ & acc & d & g & B1). eauto.
      * assert (Q := F4 "acceptances"%string). cbn [String.eqb Ascii.eqb Bool.eqb] in Q. rewrite T1 in Q. exact Q.
      * assert (Q := F4 "deltas"%string). cbn [String.eqb Ascii.eqb Bool.eqb] in Q. rewrite T2 in Q. exact Q.
      * intros LP. destruct (C07_tuned G R0 f pr (script_num e c) (script_params e) fuel StartNone w0 w1 (samples_of e) (Ret tt) LP SZ' eq_refl ER (or_introl eq_refl))
          as (accs & ds & B1 & B2 & _ & B3 & _). fold o in B1, B2.
        change (i_delta (w_inst w0)) with (i_delta s0) in B2, B3. rewrite Q6 in B2, B3.
        rewrite T1 in B1. rewrite T2 in B2. injection B1 as <-. injection B2 as <-. exact B3.
  - destruct (C01_skrock_schedule _ _ _ _ _ _ o (script_params e) fuel StartNone w0 w1 (samples_of e) SZ' eq_refl ER) as
      (s & tr & l & A1 & A2 & A3 & A4 & A5 & A6 & A7 & A8).
    change (i_delta (w_inst w0)) with (i_delta s0) in A2. rewrite Q6 in A2. cbn [script_params p_nburn p_ngap] in A3, A8.
    assert (PT : forall j en, nth_error l j = Some en -> exists d g, nth_error tr (Z.to_nat (burn_of e + 500 * Z.of_nat j)) = Some (e_X en, d, g) /\ d = e_D en).
    { intros j en Hj. destruct (A8 j en Hj) as ([[x d] g] & B1 & B2).
      destruct (C01_schedule_formula (burn_of e) 500 0 j ltac:(destruct e; cbn; lia) ltac:(lia)) as (FJ & _).
      rewrite FJ in B1. replace (burn_of e + Z.of_nat j * 500)%Z with (burn_of e + 500 * Z.of_nat j)%Z in B1 by lia.
      destruct en as [[x' d'] t]. destruct B2 as (-> & ->). exists d, g. split; [exact B1|reflexivity]. }
    exists (fun j => match nth_error l j with Some en => e_X en | None => [] end).
    split; [|split].
    + apply (rows_of_records R0 f pr (script_num e c) n (samples_of e) s0 (w_inst w1) l hd file (script_params e) (c_delta c)); auto.
      * intros j en Hj. destruct (PT j en Hj) as (d & g & B1 & ->). split; [exact (trans_forward G R0 f pr (script_num e c) _ _ _ _ (or_intror eq_refl) A2 _ _ _ _ B1)|].
        rewrite Forall_forall in A6. assert (B2 := A6 en (nth_error_In _ _ Hj)). destruct en as [[x d] t]. exact B2.
      * intros j en Hj. rewrite Hj. reflexivity.
    + intros T [(K2 & _)|(_ & ->)]; [congruence|]. exists s, tr. split; [exact A1|]. split; [exact A2|]. split; [congruence|]. split; [rewrite RNG; exact A4|].
      intros j Hj. destruct (nth_error l j) as [en|] eqn:El; [|apply nth_error_None in El; lia].
      destruct (PT j en El) as (d & g & B1 & _). eauto.
    + intros K2. congruence.
Qed.
Print Assumptions C51_saved.

(** ** Settings and algorithms that are not usable *)

(** --setting is documented as 'analysis' or 'synthesis': no script can run in
    the analysis setting; nothing is saved, drawn or printed *)
Theorem C51_settings : forall G B (R0 : rng G) h5_open h5_data h5_attr e c f inv iadj til0 til now elapsed fuel
    (w : pyworld vec vec C R G xval) (fs : @fsys B),
  let run := run_experiment R0 h5_open h5_data h5_attr e c f inv iadj til0 til now elapsed fuel w fs in
  (c_setting c = "analysis"%string -> snd run = Exn NotImplementedError) /\
  (c_setting c <> "analysis"%string -> c_setting c <> "synthesis"%string -> snd run = Exn AssertionError) /\
  (c_setting c <> "synthesis"%string -> snd (fst run) = fs /\ py_rng (fst (fst run)) = py_rng w /\ py_out (fst (fst run)) = py_out w).
Proof.
  intros G B R0 ho hd ha e c f inv iadj til0 til now elapsed fuel w fs run.
  assert (PA : c_setting c = "analysis"%string -> exp_prior e c inv iadj til0 til = Raise NotImplementedError).
  { intros Q. unfold exp_prior, Power_init. rewrite Q. destruct e; reflexivity. }
  assert (PO : c_setting c <> "analysis"%string -> c_setting c <> "synthesis"%string -> exp_prior e c inv iadj til0 til = Raise AssertionError).
  { intros N1 N2. unfold exp_prior, Power_init. destruct e;
      rewrite (proj1 (proj2 (C36_errors (c_setting c) inv iadj (TScal (exp_lmda _ c * c_mu c)) (c_L c) til)) N1 N2); reflexivity. }
  unfold run, run_experiment. split; [|split].
  - intros Q. rewrite (PA Q). reflexivity.
  - intros N1 N2. rewrite (PO N1 N2). reflexivity.
  - intros N2. destruct (string_dec (c_setting c) "analysis") as [Q|N1]; [rewrite (PA Q)|rewrite (PO N1 N2)]; auto.
Qed.
Print Assumptions C51_settings.

(** any --algo other than the three raises ValueError before anything is drawn *)
Theorem C51_unknown_algorithm : forall G B (R0 : rng G) h5_open h5_data h5_attr e c f inv iadj til0 til now elapsed fuel
    (w : pyworld vec vec C R G xval) (fs : @fsys B) pr n,
  exp_prior e c inv iadj til0 til = Ok pr -> fo_nparams f = Some n ->
  c_algo c <> "myula"%string -> c_algo c <> "pxmala"%string -> c_algo c <> "skrock"%string ->
  let run := run_experiment R0 h5_open h5_data h5_attr e c f inv iadj til0 til now elapsed fuel w fs in
  snd run = Exn ValueError /\ snd (fst run) = fs /\ py_rng (fst (fst run)) = py_rng w /\ py_out (fst (fst run)) = py_out w.
Proof.
  intros G B R0 ho hd ha e c f inv iadj til0 til now elapsed fuel w fs pr n EP EN N1 N2 N3 run.
  unfold run, run_experiment. rewrite EP, EN.
  assert (K : exp_kind (c_algo c) = None).
  { unfold exp_kind. rewrite (proj2 (String.eqb_neq _ _) N1), (proj2 (String.eqb_neq _ _) N2), (proj2 (String.eqb_neq _ _) N3). reflexivity. }
  rewrite K. auto.
Qed.
Print Assumptions C51_unknown_algorithm.

(** whatever happens, no other file is touched; without a finished run none is *)
Theorem C51_other_files : forall G B (R0 : rng G) h5_open h5_data h5_attr e c f inv iadj til0 til now elapsed fuel
    (w : pyworld vec vec C R G xval) (fs : @fsys B) W fs' r,
  run_experiment R0 h5_open h5_data h5_attr e c f inv iadj til0 til now elapsed fuel w fs = (W, fs', r) ->
  (forall p, p <> result_path c now -> fs' p = fs p) /\ (r = NoFuel -> fs' = fs).
Proof.
  intros G B R0 ho hd ha e c f inv iadj til0 til now elapsed fuel w fs W fs' r E.
  destruct (exp_prior e c inv iadj til0 til) as [pr|ex] eqn:EP; [|unfold ExpRun.run_experiment in E; rewrite EP in E; injection E as <- <- <-; split; [auto|discriminate]].
  destruct (fo_nparams f) as [n|] eqn:EN; [|unfold ExpRun.run_experiment in E; rewrite EP, EN in E; injection E as <- <- <-; split; [auto|discriminate]].
  destruct (exp_kind (c_algo c)) as [k|] eqn:EK; [|unfold ExpRun.run_experiment in E; rewrite EP, EN, EK in E; injection E as <- <- <-; split; [auto|discriminate]].
  destruct (experiment_main R0 ho hd ha e c f inv iadj til0 til now elapsed fuel w fs pr n k EP EN EK) as
    (s0 & h & e0 & self & lp & NS & HS & HL & NE & A0 & D0 & P0 & EQ).
  rewrite EQ in E. clear EQ. set (o := mcmc_ops R0 f pr (script_num e c)) in *.
  destruct (run_kind k o (script_params e) fuel StartNone (mkWorld (set_out (py_out w) s0) (py_rng w))) as [w1 r1].
  destruct r1 as [[]|ex|]; [|injection E as <- <- <-; split; [auto|discriminate]|injection E as <- <- <-; auto].
  cbv zeta in E. set (hp := upd h self (write_inst e0 (w_inst w1))) in *.
  destruct (C18_fresh_file vec vec C R xval B ho hd ha hp self lp (c_outdir c) (exp_filename c now) (exp_kwargs e c n elapsed)) as (new & r' & Q).
  rewrite filename_eq in Q. destruct (Q fs) as (Q1 & _). unfold pv in *. rewrite Q1 in E.
  split.
  - intros p Hp. destruct new as [nf|]; injection E as <- <- _; [|reflexivity].
    unfold file_put. rewrite (proj2 (String.eqb_neq _ _) Hp). reflexivity.
  - intros ->. destruct r'; discriminate.
Qed.
Print Assumptions C51_other_files.

(** ** When a script comes to its end *)

Lemma finish : forall G B (R0 : rng G) (h5_open : string -> res unit) (h5_data : bool -> pv -> res B) (h5_attr : pv -> res B)
    e c f inv iadj til0 til now elapsed fuel (w : pyworld vec vec C R G xval) (fs : @fsys B) pr n k,
  exp_prior e c inv iadj til0 til = Ok pr -> fo_nparams f = Some n -> exp_kind (c_algo c) = Some k ->
  let o := mcmc_ops R0 f pr (script_num e c) in
  exists s0, sized s0 (samples_of e) /\ ~ line_array_missing s0 /\ i_delta s0 = c_delta c /\
    let w0 := mkWorld (set_out (py_out w) s0) (py_rng w) in
    forall w1, let run := run_experiment R0 h5_open h5_data h5_attr e c f inv iadj til0 til now elapsed fuel w fs in
    (run_kind k o (script_params e) fuel StartNone w0 = (w1, Ret tt) ->
       h5_open (result_path c now) = Ok tt -> (forall b v, exists y, h5_data b v = Ok y) -> (forall v, exists y, h5_attr v = Ok y) ->
       snd run = Ret tt) /\
    (run_kind k o (script_params e) fuel StartNone w0 = (w1, NoFuel) -> snd run = NoFuel) /\
    (forall ex, run_kind k o (script_params e) fuel StartNone w0 = (w1, Exn ex) -> snd run = Exn ex).
Proof.
  intros G B R0 ho hd ha e c f inv iadj til0 til now elapsed fuel w fs pr n k EP EN EK o.
  destruct (experiment_main R0 ho hd ha e c f inv iadj til0 til now elapsed fuel w fs pr n k EP EN EK) as
    (s0 & h & e0 & self & lp & NS & HS & HL & NE & A0 & D0 & P0 & EQ). fold o in NS, EQ.
  destruct (C44_new_sampler _ _ _ _ _ _ _ _ _ _ NS) as (Q1 & Q2 & Q3 & Q4 & Q5 & Q6 & _ & SZ).
  cbn [script_params p_nsamples p_track] in SZ, Q1, Q2, Q3, Q5. rewrite Nat2Z.id in SZ, Q1, Q2, Q3, Q5.
  cbn [tracked str_in existsb String.eqb Ascii.eqb Bool.eqb orb] in Q1, Q2, Q3, Q5.
  exists s0. split; [exact SZ|]. split; [unfold line_array_missing; rewrite Q1, Q2, Q3; intros [?|[?|?]]; discriminate|].
  split; [exact Q6|]. cbv zeta. intros w1. rewrite EQ. split; [|split].
  - intros ER HO HD HA. rewrite ER. set (hp := upd h self (write_inst e0 (w_inst w1))).
    assert (LS : (self < length h)%nat) by (apply nth_error_Some; unfold hget in HS; congruence).
    assert (HS' : hget hp self = Some (write_inst e0 (w_inst w1))).
    { unfold hget, hp. rewrite ObjProof.nth_error_upd, Nat.eqb_refl by exact LS. reflexivity. }
    assert (HL' : hget hp lp = Some (exp_params e c)).
    { unfold hget, hp. rewrite ObjProof.nth_error_upd, (proj2 (Nat.eqb_neq _ _)) by auto. exact HL. }
    destruct (keys_nodup e c n elapsed) as (ND1 & ND2).
    assert (SU := C18_success_and_failure vec vec C R xval B ho hd ha fs hp self lp _ _ (c_outdir c) (exp_filename c now) (exp_kwargs e c n elapsed) HS' HL' ND1 ND2).
    cbv zeta in SU |- *. fold hp. rewrite filename_eq in SU.
    destruct (save_mcmc ho hd ha fs hp self lp (c_outdir c) (exp_filename c now) (exp_kwargs e c n elapsed)) as [fs1 r'].
    destruct SU as ((_ & SU) & _). rewrite SU; [reflexivity|]. split; [exact HO|]. split; [intros; apply HD|intros; apply HA].
  - intros ER. rewrite ER. reflexivity.
  - intros ex ER. rewrite ER. reflexivity.
Qed.

(** with operators of fitting shapes nothing is raised; MYULA and SKROCK end
    exactly when the iterations of the table are allowed to happen *)
Theorem C51_ends : forall G B (R0 : rng G) h5_open h5_data h5_attr e c f inv iadj til0 til now elapsed fuel
    (w : pyworld vec vec C R G xval) (fs : @fsys B) pr n m,
  exp_prior e c inv iadj til0 til = Ok pr -> good_rng R0 -> shapes_fit f pr n m -> lambda_of e (c_delta c) <> 0 ->
  h5_open (result_path c now) = Ok tt -> (forall b v, exists y, h5_data b v = Ok y) -> (forall v, exists y, h5_attr v = Ok y) ->
  let run := run_experiment R0 h5_open h5_data h5_attr e c f inv iadj til0 til now elapsed fuel w fs in
  (c_algo c = "myula"%string \/ c_algo c = "skrock"%string ->
     ((iterations e <= Z.of_nat fuel)%Z -> snd run = Ret tt) /\ ((Z.of_nat fuel < iterations e)%Z -> snd run = NoFuel)) /\
  (c_algo c = "pxmala"%string -> snd run = Ret tt \/ snd run = NoFuel).
Proof.
  intros G B R0 ho hd ha e c f inv iadj til0 til now elapsed fuel w fs pr n m EP GR SF LN HO HD HA run.
  assert (EN : fo_nparams f = Some n) by apply SF.
  assert (KK : forall k, exp_kind (c_algo c) = Some k -> exists s0, sized s0 (samples_of e) /\ ~ line_array_missing s0 /\ i_delta s0 = c_delta c /\
    forall w1 r, run_kind k (mcmc_ops R0 f pr (script_num e c)) (script_params e) fuel StartNone (mkWorld (set_out (py_out w) s0) (py_rng w)) = (w1, r) ->
      r = Ret tt \/ r = NoFuel -> snd run = r).
  { intros k EK. destruct (finish G B R0 ho hd ha e c f inv iadj til0 til now elapsed fuel w fs pr n k EP EN EK) as (s0 & S1 & S2 & S3 & S4).
    exists s0. split; [exact S1|]. split; [exact S2|]. split; [exact S3|]. intros w1 r ER [-> | ->]; apply (S4 w1); auto. }
  assert (IT := iterations_eq e). split.
  - intros HK.
    assert (HR : exists k, exp_kind (c_algo c) = Some k /\ (k = KMyula \/ k = KSkrock)).
    { destruct HK as [-> | ->]; [exists KMyula|exists KSkrock]; auto. }
    destruct HR as (k & EK & HK'). destruct (KK k EK) as (s0 & S1 & S2 & S3 & S4).
    set (w0 := mkWorld (set_out (py_out w) s0) (py_rng w)) in *.
    destruct (C01_numerical_runs_end G R0 f pr (script_num e c) (script_params e) fuel StartNone w0 n m (samples_of e) GR SF LN I S1 eq_refl S2)
      as ((_ & A) & (_ & B')). cbn [script_params p_nburn p_ngap] in A, B'.
    split; intros HF.
    + assert (HF' : (total_iters (burn_of e) 500 (samples_of e) <= fuel)%nat) by lia.
      destruct HK' as [-> | ->]; [destruct (A HF') as (w1 & E)|destruct (B' HF') as (w1 & E)]; exact (S4 w1 (Ret tt) E (or_introl eq_refl)).
    + assert (HF' : (fuel < total_iters (burn_of e) 500 (samples_of e))%nat) by lia.
      destruct (C01_numerical_runs_stopped G R0 f pr (script_num e c) (script_params e) fuel StartNone w0 n m (samples_of e) GR SF LN I S1 eq_refl S2 HF')
        as ((wa & Ea) & (wb & Eb)).
      destruct HK' as [-> | ->]; [exact (S4 wa NoFuel Ea (or_intror eq_refl))|exact (S4 wb NoFuel Eb (or_intror eq_refl))].
  - intros HK. destruct (KK (KPxmala true)) as (s0 & S1 & S2 & S3 & S4); [rewrite HK; reflexivity|].
    set (w0 := mkWorld (set_out (py_out w) s0) (py_rng w)) in *.
    destruct (C06_numerical_runs_end_iff G R0 f pr (script_num e c) (script_params e) true StartNone w0 n m (samples_of e) GR SF LN I S1 eq_refl)
      as (_ & Q). destruct (Q fuel) as (w1 & [E|E]); [left|right]; apply (S4 w1); auto.
Qed.
Print Assumptions C51_ends.

(** ** The regulariser *)

(** topography and lensing: quadrature-weighted l1 norm, whose prox with
    parameter lmda*mu the sampler uses *)
Theorem C51_regulariser : forall e c inv iadj til0 til pr, (forall b r, e <> Phase b r) -> 0 <= lambda_of e (c_delta c) * c_mu c ->
  exp_prior e c inv iadj til0 til = Ok pr ->
  exists bls ws, multires_bandlimits (c_L c) til = Ok bls /\ Forall2 (fun b w => mw_map_weights (Z.of_nat b) = Ok w) bls ws /\
    forall X, length X = length (List.concat ws) ->
      pr_prior pr X = Ok (rsum (map2 (fun w x => w * Cmod x) (List.concat ws) X)) /\
      exists s, pr_proxf pr X = Ok s /\
        unique_minimiser (fun u => lambda_of e (c_delta c) * c_mu c * rsum (map2 (fun w x => w * Cmod x) (List.concat ws) u)) X s.
Proof.
  intros e c inv iadj til0 til pr NP T0 E.
  assert (E' : exists p, S2_init (c_setting c) inv iadj (TScal (lambda_of e (c_delta c) * c_mu c)) (c_L c) til = Ok p /\
     pr = mkPrior (S2_prior p) (S2_proxf p)).
  { unfold exp_prior in E. destruct e as [? ? ?|b r|]; [|destruct (NP b r eq_refl)|]; cbn [exp_lmda lambda_of] in *;
      (destruct (S2_init _ _ _ _ _ _) as [p|]; [|discriminate]); cbn [rbind] in E; apply Ok_inj in E; exists p; auto. }
  destruct E' as (p & EI & ->). destruct (C36_weights _ _ _ _ _ _ _ EI) as (bls & ws & W1 & W2 & W3 & _).
  exists bls, ws. split; [exact W1|]. split; [exact W2|]. rewrite <- W3. intros X LX.
  assert (PV : forall u, length u = length X -> S2_prior p u = Ok (rsum (map2 (fun w x => w * Cmod x) (s_weights p) u)))
    by (intros u Hu; apply (C36_prior _ _ _ _ _ _ _ u EI); congruence).
  split; [apply PV; reflexivity|]. destruct (C36_prox _ _ _ _ _ _ _ X T0 EI LX) as (s & S1 & S2). exists s. split; [exact S1|].
  apply (S2 (fun u => rsum (map2 (fun w x => w * Cmod x) (s_weights p) u))). exact PV.
Qed.
Print Assumptions C51_regulariser.

(** phase velocity: the same with the power-weighted class fails *)
Theorem C51_phasevel_regulariser_refuted : exists nsim eta c inv iadj til pr X s g,
  0 < lambda_of (Phase nsim eta) (c_delta c) * c_mu c /\
  exp_prior (Phase nsim eta) c inv iadj til til = Ok pr /\ pr_proxf pr X = Ok s /\
  (forall u, length u = length X -> pr_prior pr u = Ok (g u)) /\
  ~ unique_minimiser (fun u => lambda_of (Phase nsim eta) (c_delta c) * c_mu c * g u) X s.
Proof.
  destruct C36_power_prox_refuted as (fwd & adj & t0 & L & til & eta & p & X & s & g & T0 & EI & LX & ES & EG & N).
  exists false, eta, (mkCli "myula" "synthesis" "." "0" (2 * t0) 1 L), fwd, adj, til, (mkPrior (Power_prior p) (S2_proxf p)), X, s, g.
  cbn [lambda_of c_delta c_mu]. replace (2 * t0 / 2 * 1) with t0 by field. split; [exact T0|]. split.
  - unfold exp_prior. cbn [c_setting c_L c_mu exp_lmda c_delta]. replace (2 * t0 / 2 * 1) with t0 by field. rewrite EI. reflexivity.
  - split; [exact ES|]. split; [intros u Hu; apply EG; congruence|exact N].
Qed.
Print Assumptions C51_phasevel_regulariser_refuted.

(** ** Step sizes *)

(** PxMALA retunes from the first iteration on, into [lmda/10^8, lmda/2]: in the
    saved deltas only the first is the --delta given (and saved as attribute);
    with phase velocities and lensing all others are at most a quarter of it,
    with topography at most 5e-7 whatever --delta is *)
Theorem C51_pxmala_steps : forall G B (R0 : rng G) h5_open h5_data h5_attr e c f inv iadj til0 til now elapsed fuel
    (w : pyworld vec vec C R G xval) (fs : @fsys B) W fs',
  run_experiment R0 h5_open h5_data h5_attr e c f inv iadj til0 til now elapsed fuel w fs = (W, fs', Ret tt) ->
  c_algo c = "pxmala"%string -> 0 < c_delta c ->
  exists file ds, fs' (result_path c now) = Some file /\
    holds h5_attr (h5_attrs file) "delta" (Some (VStep (c_delta c))) /\
    holds (h5_data false) (h5_datasets file) "deltas" (Some (VDeltas (c_delta c :: ds))) /\ (samples_of e <= length ds)%nat /\
    forall d, In d ds -> 0 < d /\ d <= match e with Topo _ _ _ => 5 / 10 ^ 7 | _ => c_delta c / 4 end.
Proof.
  intros G B R0 ho hd ha e c f inv iadj til0 til now elapsed fuel w fs W fs' E EA DP.
  destruct (C51_saved _ _ _ _ _ _ _ _ _ _ _ _ _ _ _ _ _ _ _ _ E) as (pr & n & file & _ & _ & F1 & _ & F3 & _ & X & _ & _ & PX).
  destruct (PX EA) as (x & g0 & tr & idx & _ & _ & (SI & HI) & LI & _ & H1 & H2 & H3 & _). cbv zeta in *.
  exists file, (map (fun p : bool * (vec * R * G) => snd (fst (snd p))) tr). split; [exact F1|]. split; [exact (F3 "delta"%string)|]. split; [exact H2|].
  assert (LP : 0 < lambda_of e (c_delta c)) by (destruct e; cbn; lra).
  destruct (H3 LP) as (LL & TH). split.
  - rewrite map_length, <- LI. rewrite <- (seq_length (length tr) 0). apply NoDup_incl_length.
    + clear - SI. induction SI as [|a l SI IH F]; constructor; [|exact IH]. intros H. rewrite Forall_forall in F. specialize (F a H). lia.
    + intros k Hk. apply in_seq. destruct (proj1 (HI k) Hk) as (_ & s & Hs). destruct (Nat.le_gt_cases (length tr) k) as [Z|Z]; [|lia].
      pose proof (eq_trans (eq_sym Hs) (proj2 (nth_error_None tr k) Z)) as Q. discriminate Q.
  - intros d Hd. destruct (In_nth _ _ 0 Hd) as (i & Hi & <-). destruct (TH i Hi) as ((B1 & B2) & _).
    assert (P8 : 0 < 10 ^ 8) by (apply pow_lt; lra). split.
    + eapply Rlt_le_trans; [|exact B1]. apply Rdiv_lt_0_compat; assumption.
    + eapply Rle_trans; [exact B2|]. destruct e; cbn [lambda_of]; lra.
Qed.
Print Assumptions C51_pxmala_steps.

(** MYULA: with lmda = delta/2 one step is a reflection through the prox (a
    component in the dead zone changes sign instead of shrinking); topography
    with the default --delta takes the usual step from the prox *)
Theorem C51_myula_step : forall G (R0 : rng G) f pr e c X d p gr g n,
  good_rng R0 -> fo_nparams f = Some n -> lambda_of e (c_delta c) <> 0 -> length X = n ->
  fo_forward f X = Ok d -> pr_proxf pr X = Ok p -> fo_gradg f d = Ok gr -> length p = n -> length gr = n ->
  let (xi, g') := noise R0 false n g in
  exists X', chain_step R0 f (script_num e c) (c_delta c) X p gr g = (Ok X', g') /\ length X' = n /\
    forall i, (i < n)%nat ->
      let at_ (v : vec) := nth i v (RtoC 0) in
      match e with
      | Topo _ _ _ => c_delta c = 1 / 10 ^ 6 ->
          at_ X' = (at_ p - RtoC (c_delta c) * at_ gr + RtoC (sqrt (2 * c_delta c)) * at_ xi)%C
      | _ => at_ X' = (RtoC 2 * at_ p - at_ X - RtoC (c_delta c) * at_ gr + RtoC (sqrt (2 * c_delta c)) * at_ xi)%C
      end.
Proof.
  intros G R0 f pr e c X d p gr g n GR EN LN LX ED EP EG Lp Lg.
  destruct (C12_step G R0 f pr (script_num e c) (c_delta c) X d p gr g n GR EN LN LX ED EP EG Lp Lg) as (gl & _ & _ & GL & ST).
  cbn [script_num n_complex] in ST.
  assert (Lxi : length (fst (noise R0 false n g)) = n) by (unfold noise; cbn [fst]; rewrite map_length; exact (proj1 (GR n g))).
  destruct (noise R0 false n g) as [xi g']. cbn [fst] in Lxi. eexists. split; [exact ST|].
  assert (LD : length (vsub X p) = n) by (unfold vsub; rewrite map2_length; congruence).
  assert (LS : forall a v, length v = n -> length (vscal a v) = n) by (intros a v Lv; unfold vscal; rewrite map_length; exact Lv).
  assert (L2 : forall (h : C -> C -> C) u v, length u = n -> length v = n -> length (map2 h u v) = n) by (intros h u v Lu Lv; rewrite map2_length; congruence).
  assert (Lgl : length gl = n) by (rewrite GL; apply L2; auto).
  split; [apply L2; auto; apply L2; auto|].
  intros i Hi. cbv zeta beta.
  assert (N2 : forall (h : C -> C -> C) u v, length u = n -> length v = n -> nth i (map2 h u v) (RtoC 0) = h (nth i u (RtoC 0)) (nth i v (RtoC 0))).
  { intros h u v Lu Lv. apply CVec.nth_map2; congruence. }
  match goal with |- context [nth i ?Y (RtoC 0)] => assert (XE : nth i Y (RtoC 0) =
    (nth i X (RtoC 0) + RtoC (c_delta c) * (RtoC (- / lambda_of e (c_delta c)) * (nth i X (RtoC 0) - nth i p (RtoC 0)) - nth i gr (RtoC 0)) +
     RtoC (sqrt (2 * c_delta c)) * nth i xi (RtoC 0))%C) end.
  { unfold vadd. rewrite N2 by (auto; apply L2; auto). rewrite N2 by auto. rewrite !nth_vscal, GL.
    unfold vsub at 1. rewrite N2 by auto. rewrite nth_vscal. unfold vsub. rewrite N2 by auto. reflexivity. }
  rewrite XE. clear XE.
  set (a := nth i X (RtoC 0)). set (b := nth i p (RtoC 0)). set (k := nth i gr (RtoC 0)). set (z := nth i xi (RtoC 0)).
  assert (K : forall r, r = c_delta c * - / lambda_of e (c_delta c) ->
    (a + RtoC (c_delta c) * (RtoC (- / lambda_of e (c_delta c)) * (a - b) - k) + RtoC (sqrt (2 * c_delta c)) * z)%C =
    (a + RtoC r * (a - b) - RtoC (c_delta c) * k + RtoC (sqrt (2 * c_delta c)) * z)%C).
  { intros r ->. rewrite RtoC_mult. ring. }
  destruct e as [? ? ?|? ?|]; cbn [lambda_of] in *.
  - intros ED'. rewrite (K (-1)) by (rewrite ED'; field; repeat apply Rmult_integral_contrapositive_currified; lra).
    replace (RtoC (-1)) with (- RtoC 1)%C by (rewrite <- RtoC_opp; f_equal; lra). ring.
  - rewrite (K (-2)) by (field; intros Z; apply LN; rewrite Z; lra).
    replace (RtoC (-2)) with (- RtoC 2)%C by (rewrite <- RtoC_opp; f_equal; lra).
    replace (RtoC 2) with (RtoC 1 + RtoC 1)%C by (rewrite <- RtoC_plus; f_equal; lra). ring.
  - rewrite (K (-2)) by (field; intros Z; apply LN; rewrite Z; lra).
    replace (RtoC (-2)) with (- RtoC 2)%C by (rewrite <- RtoC_opp; f_equal; lra).
    replace (RtoC 2) with (RtoC 1 + RtoC 1)%C by (rewrite <- RtoC_plus; f_equal; lra). ring.
Qed.
Print Assumptions C51_myula_step.

(** ** A concrete run *)

Lemma unit_operator_shapes : forall pr n, maps (pr_proxf pr) n n -> (forall x, length x = n -> exists r, pr_prior pr x = Ok r) ->
  shapes_fit (mkFwd (mkData (vzero n) false) (scaled_identity n (RtoC 1)) "analysis" None (Some id_meas) (Some n)) pr n n.
Proof.
  intros pr n P1 P2. assert (LZ : length (vzero n) = n) by apply repeat_length.
  assert (I : maps (fun x => Ok x) n n) by (intros x Lx; eauto).
  unfold shapes_fit. split; [reflexivity|]. split; [exact LZ|]. split; [reflexivity|]. split; [reflexivity|]. split; [exact I|]. split; [|auto].
  intros x Lx. unfold fo_gradg, gradg_analysis.
  cbn [fo_setting fo_measurement attr rbind String.eqb Ascii.eqb Bool.eqb fo_data d_val fo_invcov].
  rewrite np_sub_same by congruence. cbn [rbind].
  rewrite np_dot_ok by (rewrite vsub_length; [exact Lx|congruence]). cbn [rbind ms_adjoint id_meas].
  eexists. split; [reflexivity|]. rewrite matvec_length. reflexivity.
Qed.

Lemma weights_8 : forall t, exists b, S2_init "synthesis" (fun x => Ok x) (fun x => Ok x) (TScal t) 2 (til_witness 1) = Ok b /\ length (s_weights b) = 8%nat.
Proof.
  intros t. destruct (proj2 (weights_ok_iff 1) ltac:(lia)) as [Q1 E1]. destruct (proj2 (weights_ok_iff 2) ltac:(lia)) as [Q2 E2].
  destruct (weights_positive 1 Q1 ltac:(lia) E1) as [LQ1 _]. destruct (weights_positive 2 Q2 ltac:(lia) E2) as [LQ2 _].
  assert (EQ : quad_weights [1; 1; 2]%nat = Ok (Q1 ++ Q1 ++ Q2)%list).
  { unfold quad_weights. simpl map. rewrite E1, E2. simpl. rewrite app_nil_r. reflexivity. }
  eexists. split.
  - unfold S2_init. cbn [L1_init known_setting]. change (known_setting "synthesis") with true. cbv iota. cbn [rbind].
    rewrite String.eqb_refl, til_witness_bandlimits by lra. cbn [rbind]. rewrite EQ. reflexivity.
  - cbn [s_weights]. rewrite !app_length, LQ1, LQ2. reflexivity.
Qed.

(** topography with bandlimit 2 (8 coefficients) and the default arguments:
    49501 iterations suffice, and the file then has 100 rows of 8 numbers *)
Example C51_case : forall G (R0 : rng G) (w : pyworld vec vec C R G xval) (fs : @fsys pv), good_rng R0 ->
  let f := mkFwd (mkData (vzero 8) false) (scaled_identity 8 (RtoC 1)) "analysis" None (Some id_meas) (Some 8%nat) in
  let c := mkCli "myula" "synthesis" "." "0" (1 / 1000000) 1 2 in
  exists W fs' file chain,
    run_experiment R0 (fun _ => Ok tt) (fun _ v => Ok v) (fun v => Ok v) (Topo None 1 0) c f (fun x => Ok x) (fun x => Ok x)
      (til_witness 1) (til_witness 1) "16112026-0900" "1" (Z.to_nat 49501) w fs = (W, fs', Ret tt) /\
    fs' "./myula_synthesis_16112026-0900_0.hdf5"%string = Some file /\
    dget (h5_attrs file) "nparams" = Some (VInt 8) /\ dget (h5_attrs file) "noise" = Some (VInt 0) /\
    dget (h5_datasets file) "chain" = Some (VChain chain) /\ length chain = 100%nat.
Proof.
  intros G R0 w fs GR f c. destruct (weights_8 (exp_lmda (Topo None 1 0) c * c_mu c)) as (b & EB & LB).
  set (pr := mkPrior (S2_prior b) (S2_proxf b)).
  assert (EP : exp_prior (Topo None 1 0) c (fun x => Ok x) (fun x => Ok x) (til_witness 1) (til_witness 1) = Ok pr)
    by (unfold exp_prior; change (c_setting c) with "synthesis"%string; change (c_L c) with 2%nat; rewrite EB; reflexivity).
  destruct (C36_shapes _ _ _ _ _ _ _ EB) as (P1 & P2). rewrite LB in P1, P2.
  assert (SF : shapes_fit f pr 8 8) by (apply unit_operator_shapes; assumption).
  destruct (C51_ends G pv R0 (fun _ => Ok tt) (fun _ v => Ok v) (fun v => Ok v) (Topo None 1 0) c f (fun x => Ok x) (fun x => Ok x)
    (til_witness 1) (til_witness 1) "16112026-0900" "1" (Z.to_nat 49501) w fs pr 8 8 EP GR SF) as ((RT & _) & _);
    [cbn; lra|reflexivity|eauto|eauto|left; reflexivity|].
  specialize (RT ltac:(rewrite Z2Nat.id; [apply Z.le_refl|lia])).
  destruct (run_experiment _ _ _ _ _ _ _ _ _ _ _ _ _ _ _ _) as [[W fs'] r] eqn:ER. cbn [snd] in RT. subst r.
  destruct (C51_saved _ _ _ _ _ _ _ _ _ _ _ _ _ _ _ _ _ _ _ _ ER) as (pr' & n & file & EP' & EN & F1 & F2 & F3 & F4 & X & FR & _).
  change (Some 8%nat = Some n) in EN. injection EN as <-.
  destruct FR as (chain & lps & l2s & prs & (H1 & H2) & _). exists W, fs', file, chain.
  split; [reflexivity|]. split; [exact F1|].
  assert (A1 := F3 "nparams"%string). assert (A2 := F3 "noise"%string). cbn in A1, A2, H1.
  destruct A1 as (y1 & Y1 & A1). destruct A2 as (y2 & Y2 & A2). destruct H1 as (y3 & Y3 & H1).
  apply Ok_inj in Y1. apply Ok_inj in Y2. apply Ok_inj in Y3. rewrite <- Y1 in A1. rewrite <- Y2 in A2. rewrite <- Y3 in H1.
  split; [exact A1|]. split; [exact A2|]. split; [exact H1|exact H2].
Qed.
