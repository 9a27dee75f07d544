(** C42, the samplers: a run writes to the tracking arrays of its own sampler and
    to nothing else, whatever the caller's arrays share with each other or with
    the sampler. *)
From Coq Require Import List ZArith Lia Bool Reals Lra String.
From Coquelicot Require Import Coquelicot.
From Verif Require Import PyBase PyBaseFacts CVec Thresh Prior Forward Sampler Mcmc Arrays ArrSpec ArrProof HSampler HSampSpec HSampProof HMcmc HMcmcSpec HMcmcProof P_Arrays.
Import ListNotations.
Notation length := List.length.
Open Scope R_scope.

Lemma run_values_s : forall {G} (R0 : rng G) f pr q prm k fuel start, k <> KSkrock ->
  run_values (mcmc_ops R0 f pr q) prm k fuel start = run_values (mcmc_ops R0 f pr (mkNum (n_lmda q) (n_mu q) 1 (n_complex q))) prm k fuel start.
Proof. intros G R0 f pr q prm [|tune|] fuel start Hk; [reflexivity|reflexivity|congruence]. Qed.
Lemma run_arrays_s : forall {G} (R0 : rng G) f pr hf hp q prm nV nD k fuel start, k <> KSkrock ->
  run_arrays (mcmc_ops R0 f pr q) (h_mcmc_ops R0 hf hp q) prm nV nD k fuel start =
  run_arrays (mcmc_ops R0 f pr (mkNum (n_lmda q) (n_mu q) 1 (n_complex q))) (h_mcmc_ops R0 hf hp (mkNum (n_lmda q) (n_mu q) 1 (n_complex q))) prm nV nD k fuel start.
Proof. intros G R0 f pr hf hp q prm nV nD [|tune|] fuel start Hk; [reflexivity|reflexivity|congruence]. Qed.

Lemma cells_in : forall s c, In c (cells s) <-> exists a, hi_arr s a = Some c.
Proof.
  intros s c. unfold cells. rewrite in_flat_map. split.
  - intros [a [_ Hc]]. exists a. destruct (hi_arr s a) as [c'|]; [destruct Hc as [->|[]]; reflexivity|destruct Hc].
  - intros [a Ha]. exists a. split; [destruct a; cbn; tauto|]. rewrite Ha. left. reflexivity.
Qed.
Lemma same_state_cells : forall {G} prm nV nD (hw : hworld G) w c, same_state prm nV nD hw w -> In c (cells (hw_inst hw)) -> (c < length (hw_heap hw))%nat.
Proof.
  intros G prm nV nD hw w c [_ [_ [_ [_ [_ [_ Sh]]]]]] Hc. apply cells_in in Hc. destruct Hc as [a Ha]. specialize (Sh a). rewrite Ha in Sh. cbn in Sh.
  destruct (rows a (w_inst w)); [apply Sh|contradiction].
Qed.

(** ** a run *)
(** A run ends as the run on values does (so all theorems about the samplers
    hold), leaves the sampler in the state of the run on values, and changes no
    buffer except those of the sampler's own tracking arrays: neither the start
    point, nor data, nor anything held by the operators or the prior.  The start
    point may be any array, even a row of the sampler's own chain. *)
Theorem C42_samplers : forall {G} (R0 : rng G) hf f hp pr q prm k fuel start startv hw w hw' out w' outv,
  let nV := num_of (fo_nparams f) in
  let nD := length (d_val (fo_data f)) in
  let P := frame (cells (hw_inst hw)) (hw_heap hw) in
  (k = KSkrock -> (1 <= n_s q)%Z) ->
  same_state prm nV nD hw w -> forward_on_arrays P hf f -> prior_on_arrays P hp pr -> start_on_arrays (hw_heap hw) start startv ->
  run_arrays (mcmc_ops R0 f pr q) (h_mcmc_ops R0 hf hp q) prm nV nD k fuel start hw = (hw', out) ->
  run_values (mcmc_ops R0 f pr q) prm k fuel startv w = (w', outv) ->
  out = outv /\ same_state prm nV nD hw' w' /\ incl (cells (hw_inst hw')) (cells (hw_inst hw)) /\
  (length (hw_heap hw) <= length (hw_heap hw'))%nat /\
  forall c, (c < length (hw_heap hw))%nat -> ~ In c (cells (hw_inst hw)) -> cell (hw_heap hw') c = cell (hw_heap hw) c.
Proof.
  intros G R0 hf f hp pr q prm k fuel start startv hw w hw' out w' outv nV nD P Hs SS FA PA SA Er Ev.
  assert (W : exists q', (1 <= n_s q')%Z /\
     run_arrays (mcmc_ops R0 f pr q) (h_mcmc_ops R0 hf hp q) prm nV nD k fuel start = run_arrays (mcmc_ops R0 f pr q') (h_mcmc_ops R0 hf hp q') prm nV nD k fuel start /\
     run_values (mcmc_ops R0 f pr q) prm k fuel startv = run_values (mcmc_ops R0 f pr q') prm k fuel startv).
  { assert (Dk : k = KSkrock \/ k <> KSkrock) by (destruct k; [right; discriminate|right; discriminate|left; reflexivity]). destruct Dk as [Ek|Nk].
    - exists q. auto.
    - exists (mkNum (n_lmda q) (n_mu q) 1 (n_complex q)). split; [cbn; lia|]. split; [apply run_arrays_s; auto|apply run_values_s; auto]. }
  destruct W as [q' [Hs' [E1 E2]]]. rewrite E1 in Er. rewrite E2 in Ev. clear E1 E2 Hs q. rename q' into q.
  assert (Pf : forall h h', P h -> frame (cells (hw_inst hw)) h h' -> P h') by (intros h h' A B; eapply frame_trans; eauto).
  assert (Pc : forall h h', P h -> preserves h h' -> P h') by (intros h h' A B; eapply Pf; [exact A|apply preserves_frame; exact B]).
  pose proof (ops_ok R0 hf f hp pr q P Pc FA PA Hs') as OA.
  pose proof (start_ok R0 hf f hp pr q P FA (hw_heap hw) start startv SA) as IO.
  assert (Gd : good prm nV nD P (cells (hw_inst hw)) hw w).
  { split; [exact SS|]. split; [apply frame_refl|]. split; [auto|]. intros c Hc. eapply same_state_cells; eauto. }
  assert (rV : forall x y, o_rowV (mcmc_ops R0 f pr q) x = Ok y -> length y = nV) by (intros x y E; eapply store_row_length; exact E).
  assert (rD : forall x y, o_rowD (mcmc_ops R0 f pr q) x = Ok y -> length y = nD) by (intros x y E; eapply store_row_length; exact E).
  assert (Sm : sim prm nV nD P (cells (hw_inst hw)) (frame (cells (hw_inst hw))) (run_arrays (mcmc_ops R0 f pr q) (h_mcmc_ops R0 hf hp q) prm nV nD k fuel start)
                  (run_values (mcmc_ops R0 f pr q) prm k fuel startv) hw w (fun _ _ _ => True)).
  { destruct k as [|tune|]; cbn [run_arrays run_values].
    - apply sim_myula_run; auto.
    - apply sim_pxmala_run; auto.
    - apply sim_skrock_run; auto. }
  destruct Sm as [Fr [Gd' O]]. rewrite Er, Ev in *. cbn [fst snd] in *. destruct Gd' as [SS' [_ [Ic _]]]. destruct Fr as [Fl Fc].
  split.
  { destruct out as [[]|e|], outv as [[]|e'|]; try contradiction; congruence. }
  auto.
Qed.
Print Assumptions C42_samplers.

(** ** construction *)
Lemma concat_repeat_vzero : forall n k, List.concat (repeat (vzero n) k) = repeat (RtoC 0) (k * n).
Proof. intros n k. induction k as [|k IH]; [reflexivity|]. cbn [repeat List.concat]. rewrite IH. cbn [Nat.mul]. rewrite repeat_app. reflexivity. Qed.
Lemma concat_repeat_one : forall k, List.concat (map (fun z : C => [z]) (repeat (RtoC 0) k)) = repeat (RtoC 0) (k * 1).
Proof. intros k. rewrite Nat.mul_1_r. induction k as [|k IH]; [reflexivity|]. cbn. rewrite IH. reflexivity. Qed.

(** what one optional array looks like *)
Lemma h_opt_array_spec : forall (prm : params) nV nD (b : bool) (a : attrib) (l : res (option (list vec))) h,
  l = (if b then if (p_nsamples prm <? 0)%Z then Raise ValueError else Ok (Some (repeat (vzero (dim nV nD a)) (Z.to_nat (p_nsamples prm)))) else Ok None) ->
  hspec (h_opt_array prm nV nD b a) h (fun o h' =>
    match l with
    | Raise e => o = Raise e
    | Ok rws => exists c, o = Ok c /\ shows h' (p_nsamples prm) (dim nV nD a) c rws /\ (forall x, c = Some x -> (length h <= x < length h')%nat)
    end).
Proof.
  intros prm nV nD b a l h ->. unfold h_opt_array. destruct b; [|apply hspec_ret; exists None; split; [reflexivity|]; split; [exact I|discriminate]].
  destruct (p_nsamples prm <? 0)%Z eqn:L; [split; [apply preserves_refl|reflexivity]|]. apply Z.ltb_ge in L.
  split; [apply preserves_intro|]. cbn [hbind alloc hret fst snd r_cell]. exists (Some (length h)). split; [reflexivity|]. split.
  - cbn. split; [rewrite app_length; cbn; lia|]. split; [unfold cell; rewrite nth_last; symmetry; apply concat_repeat_vzero|]. split; [rewrite repeat_length; lia|].
    intros x Hx. apply repeat_spec in Hx. subst x. apply repeat_length.
  - intros x Ex. injection Ex as <-. rewrite app_length. cbn. lia.
Qed.

Lemma opt_rows_V : forall {A} (b : bool) n (z : A), opt_array b n z = if b then if (n <? 0)%Z then Raise ValueError else Ok (Some (repeat z (Z.to_nat n))) else Ok None.
Proof. intros A b n z. unfold opt_array, np_zeros. destruct b; [|reflexivity]. destruct (n <? 0)%Z; reflexivity. Qed.

(** A new sampler has new arrays, all distinct and filled with zeros, and nothing
    that existed is written to.  It fails exactly when the sampler on values does. *)
Theorem C42_new_sampler : forall {G} (R0 : rng G) f pr q prm delta h (g : G) out h',
  let nV := num_of (fo_nparams f) in
  let nD := length (d_val (fo_data f)) in
  h_new_sampler prm nV nD delta h = (out, h') ->
  nothing_written h h' /\
  match new_sampler (mcmc_ops R0 f pr q) prm delta with
  | Ok s => exists hs, out = Ok hs /\ same_state prm nV nD (mkHW hs g h') (mkWorld s g) /\ forall c, In c (cells hs) -> (length h <= c)%nat
  | Raise e => out = Raise e
  end.
Proof.
  intros G R0 f pr q prm delta h g out h' nV nD E.
  assert (S : hspec (h_new_sampler prm nV nD delta) h (fun out h' =>
    match new_sampler (mcmc_ops R0 f pr q) prm delta with
    | Ok s => exists hs, out = Ok hs /\ same_state prm nV nD (mkHW hs g h') (mkWorld s g) /\ forall c, In c (cells hs) -> (length h <= c)%nat
    | Raise e => out = Raise e
    end)).
  2:{ destruct S as [A B]. rewrite E in A, B. split; [apply preserves_iff; exact A|exact B]. }
  clear E. unfold h_new_sampler, new_sampler. rewrite !opt_rows_V. cbn [mcmc_ops o_zeroK o_zeroD o_zeroV]. fold nV. fold nD.
  assert (K : forall b a (kc : option nat -> H hinst) (kv : option (list vec) -> res (inst vec vec C R)) hh (Q : res (inst vec vec C R) -> res hinst -> aheap -> Prop), (forall e h2, Q (Raise e) (Raise e) h2) ->
    (forall c l h1, preserves hh h1 -> shows h1 (p_nsamples prm) (dim nV nD a) c l -> (forall x, c = Some x -> (length hh <= x < length h1)%nat) -> hspec (kc c) h1 (Q (kv l))) ->
    hspec (hbind (h_opt_array prm nV nD b a) kc) hh (Q (rbind (if b then if (p_nsamples prm <? 0)%Z then Raise ValueError else Ok (Some (repeat (vzero (dim nV nD a)) (Z.to_nat (p_nsamples prm)))) else Ok None) kv))).
  { intros b a kc kv hh Q QR Kk. apply hspec_bind. eapply hspec_conseq; [apply (h_opt_array_spec prm nV nD b a _ hh eq_refl)|]. intros o h1 Hp Ho.
    destruct (if b then _ else _) as [l|e]; [|subst o; apply QR]. destruct Ho as [c [-> [Sh Rg]]]. apply Kk; auto. }
  set (Q := fun (v : res (inst vec vec C R)) (out : res hinst) (h' : aheap) => match v with
    | Ok s => exists hs, out = Ok hs /\ same_state prm nV nD (mkHW hs g h') (mkWorld s g) /\ forall c, In c (cells hs) -> (length h <= c)%nat
    | Raise e => out = Raise e
    end).
  set (un := option_map (map (fun z : vec => nth 0 z (RtoC 0)))).
  assert (U : forall (b : bool) (kv : option (list C) -> res (inst vec vec C R)),
    rbind (if b then if (p_nsamples prm <? 0)%Z then Raise ValueError else Ok (Some (repeat (RtoC 0) (Z.to_nat (p_nsamples prm)))) else Ok None) kv =
    rbind (if b then if (p_nsamples prm <? 0)%Z then Raise ValueError else Ok (Some (repeat (vzero 1) (Z.to_nat (p_nsamples prm)))) else Ok None) (fun l => kv (un l))).
  { intros b kv. destruct b; [|reflexivity]. destruct (p_nsamples prm <? 0)%Z; [reflexivity|]. cbn [rbind un option_map]. do 2 f_equal. clear.
    induction (Z.to_nat (p_nsamples prm)) as [|k IH]; [reflexivity|]. cbn [repeat map]. rewrite <- IH. reflexivity. }
  change (hspec (let! lp := h_opt_array prm nV nD (str_in "logposterior" (p_track prm)) ALogPi in
    let! pd := h_opt_array prm nV nD (str_in "predictions" (p_track prm)) APreds in
    let! ch := h_opt_array prm nV nD (str_in "chain" (p_track prm)) AChain in
    let! l2 := h_opt_array prm nV nD (str_in "L2" (p_track prm)) AL2s in
    let! pr := h_opt_array prm nV nD (str_in "prior" (p_track prm)) APriors in
    hret (mkHI (fun a => match a with ALogPi => lp | AL2s => l2 | APriors => pr | APreds => pd | AChain => ch end) None None delta [])) h
    (Q (rbind (if str_in "logposterior" (p_track prm) then if (p_nsamples prm <? 0)%Z then Raise ValueError else Ok (Some (repeat (RtoC 0) (Z.to_nat (p_nsamples prm)))) else Ok None) (fun lp =>
        rbind (if str_in "predictions" (p_track prm) then if (p_nsamples prm <? 0)%Z then Raise ValueError else Ok (Some (repeat (vzero nD) (Z.to_nat (p_nsamples prm)))) else Ok None) (fun pd =>
        rbind (if str_in "chain" (p_track prm) then if (p_nsamples prm <? 0)%Z then Raise ValueError else Ok (Some (repeat (vzero nV) (Z.to_nat (p_nsamples prm)))) else Ok None) (fun ch =>
        rbind (if str_in "L2" (p_track prm) then if (p_nsamples prm <? 0)%Z then Raise ValueError else Ok (Some (repeat (RtoC 0) (Z.to_nat (p_nsamples prm)))) else Ok None) (fun l2 =>
        rbind (if str_in "prior" (p_track prm) then if (p_nsamples prm <? 0)%Z then Raise ValueError else Ok (Some (repeat (RtoC 0) (Z.to_nat (p_nsamples prm)))) else Ok None) (fun pr =>
        Ok (mkInst lp l2 pr pd ch None None delta []))))))))).
  assert (QR : forall e h2, Q (Raise e) (Raise e) h2) by reflexivity.
  assert (M1 : forall h1 c l, shows h1 (p_nsamples prm) 1 c l -> shows h1 (p_nsamples prm) 1 c (option_map (map (fun z : C => [z])) (un l))).
  { intros h1 [c|] [l|] Sh; cbn in *; auto. destruct Sh as [A [B [D F]]]. assert (X : map (fun z : C => [z]) (map (fun z : vec => nth 0 z (RtoC 0)) l) = l).
    { clear -F. induction l as [|x l IH]; [reflexivity|]. cbn [map]. rewrite IH by (intros; apply F; right; auto). f_equal. specialize (F x (or_introl eq_refl)). destruct x as [|z [|? ?]]; try discriminate. reflexivity. }
    rewrite X. auto. }
  rewrite U. apply (K _ ALogPi); [exact QR|]. intros c1 l1 h1 Hp1 S1 R1.
  apply (K _ APreds); [exact QR|]. intros c2 l2 h2 Hp2 S2 R2.
  apply (K _ AChain); [exact QR|]. intros c3 l3 h3 Hp3 S3 R3.
  rewrite U. apply (K _ AL2s); [exact QR|]. intros c4 l4 h4 Hp4 S4 R4.
  rewrite U. apply (K _ APriors); [exact QR|]. intros c5 l5 h5 Hp5 S5 R5.
  apply hspec_ret. pose proof (preserves_length _ _ Hp1). pose proof (preserves_length _ _ Hp2). pose proof (preserves_length _ _ Hp3). pose proof (preserves_length _ _ Hp4). pose proof (preserves_length _ _ Hp5).
  eexists. split; [reflexivity|]. split.
  - split; [reflexivity|]. split; [reflexivity|]. split; [reflexivity|]. split; [reflexivity|]. split; [reflexivity|]. split.
    + unfold cells. cbn [hw_inst flat_map hi_arr app].
      destruct c1 as [x1|]; [specialize (R1 x1 eq_refl)|clear R1]; destruct c2 as [x2|]; try specialize (R2 x2 eq_refl); destruct c3 as [x3|]; try specialize (R3 x3 eq_refl);
      destruct c4 as [x4|]; try specialize (R4 x4 eq_refl); destruct c5 as [x5|]; try specialize (R5 x5 eq_refl); cbn [app]; repeat constructor; cbn [In]; lia.
    + intros a. cbn [hw_inst hw_heap w_inst hi_arr].
      destruct a; cbn [rows i_logPi i_L2s i_priors i_preds i_chain dim] in *; try apply M1; repeat (first [assumption | eapply shows_mono; [eassumption|]]).
  - intros c Hc. apply cells_in in Hc. destruct Hc as [a Ha]. cbn [hi_arr] in Ha. destruct a; subst.
    + specialize (R1 c eq_refl). lia.
    + specialize (R4 c eq_refl). lia.
    + specialize (R5 c eq_refl). lia.
    + specialize (R2 c eq_refl). lia.
    + specialize (R3 c eq_refl). lia.
Qed.
Print Assumptions C42_new_sampler.

(** ** construction and run: nothing the caller has is changed *)
Lemma forward_antitone : forall (P P' : aheap -> Prop) hf f, (forall h, P' h -> P h) -> forward_on_arrays P hf f -> forward_on_arrays P' hf f.
Proof.
  intros P P' hf f Hi [A B D E F K].
  assert (Im : forall X x, implements P X x -> implements P' X x) by (intros X x HX h r Hh Hr; apply HX; auto).
  constructor; auto.
  - destruct (hf_transform hf), (fo_transform f); auto. destruct F. split; auto.
  - destruct (hf_meas hf), (fo_measurement f); auto. destruct K. split; auto.
Qed.
Lemma prior_antitone : forall (P P' : aheap -> Prop) hp p, (forall h, P' h -> P h) -> prior_on_arrays P hp p -> prior_on_arrays P' hp p.
Proof. intros P P' hp p Hi [A B]. constructor; [intros h X Hh HX; apply A; auto|]. intros h r Hh Hr. apply B; auto. Qed.

(** Construct a sampler and run it: every array that existed before has the same
    values afterwards, and what the run does is what the value-level run does. *)
Theorem C42_session : forall {G} (R0 : rng G) hf f hp pr q prm delta k fuel start startv h0 (g : G) s h1 hw' out,
  let nV := num_of (fo_nparams f) in
  let nD := length (d_val (fo_data f)) in
  (k = KSkrock -> (1 <= n_s q)%Z) ->
  forward_on_arrays (nothing_written h0) hf f -> prior_on_arrays (nothing_written h0) hp pr -> start_on_arrays h0 start startv ->
  h_new_sampler prm nV nD delta h0 = (Ok s, h1) ->
  run_arrays (mcmc_ops R0 f pr q) (h_mcmc_ops R0 hf hp q) prm nV nD k fuel start (mkHW s g h1) = (hw', out) ->
  nothing_written h0 (hw_heap hw') /\
  exists sv w', new_sampler (mcmc_ops R0 f pr q) prm delta = Ok sv /\
    run_values (mcmc_ops R0 f pr q) prm k fuel startv (mkWorld sv g) = (w', out) /\ same_state prm nV nD hw' w'.
Proof.
  intros G R0 hf f hp pr q prm delta k fuel start startv h0 g s h1 hw' out nV nD Hs FA PA SA En Er.
  destruct (C42_new_sampler R0 f pr q prm delta h0 g (Ok s) h1 En) as [N0 Hv]. destruct (new_sampler (mcmc_ops R0 f pr q) prm delta) as [sv|e]; [|discriminate].
  destruct Hv as [hs [E [SS Fc]]]. apply Ok_inj in E. subst hs. pose proof N0 as Np. apply preserves_iff in Np. destruct Np as [t0 Et].
  assert (Cl : forall c, (c < length h0)%nat -> ~ In c (cells s)) by (intros c Hc Hi; specialize (Fc c Hi); exact (Nat.lt_irrefl _ (Nat.lt_le_trans _ _ _ Hc Fc))).
  assert (L1 : (length h0 <= length h1)%nat) by (rewrite Et, app_length; lia).
  assert (T : forall h, frame (cells s) h1 h -> nothing_written h0 h).
  { intros h [Hl Hf] c v Ec. assert (Hc : (c < length h0)%nat) by (apply nth_error_Some; congruence).
    assert (Hc1 : (c < length h1)%nat) by (eapply Nat.lt_le_trans; [exact Hc|exact L1]). assert (Hc2 : (c < length h)%nat) by (eapply Nat.lt_le_trans; [exact Hc1|exact Hl]).
    specialize (Hf c Hc1 (Cl c Hc)). pose proof (N0 c v Ec) as E1. unfold cell in Hf. rewrite (nth_error_nth' h [] Hc2), Hf. rewrite (nth_error_nth' h1 [] Hc1) in E1. exact E1. }
  assert (SA1 : start_on_arrays h1 start startv).
  { rewrite Et. destruct start as [|sh r|], startv as [|sh' buf|]; auto. destruct SA as [A [B D]]. split; [exact A|]. split; [unfold allocated in *; rewrite app_length; lia|]. rewrite rd_app by exact B. exact D. }
  destruct (run_values (mcmc_ops R0 f pr q) prm k fuel startv (mkWorld sv g)) as [w' outv] eqn:Ev.
  destruct (C42_samplers R0 hf f hp pr q prm k fuel start startv (mkHW s g h1) (mkWorld sv g) hw' out w' outv Hs SS) as [Eo [SS' [_ [Fl Ff]]]]; auto.
  - eapply forward_antitone; [|exact FA]. exact T.
  - eapply prior_antitone; [|exact PA]. exact T.
  - subst outv. split; [apply T; split; auto|]. exists sv, w'. auto.
Qed.
Print Assumptions C42_session.
