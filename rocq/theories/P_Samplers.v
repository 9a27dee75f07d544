(** Property theorems about the sampler loops (model Sampler.v, vocabulary
    SamplerSpec.v).  Every theorem is for arbitrary operators, priors, random
    generators, start points, parameters and (unless a result is asked for)
    any number of iterations. *)
From Coq Require Import List ZArith Lia Bool String Sorted.
From Verif Require Import PyBase Sampler SamplerSpec SamplerDemo MyulaProof LoopProof ScheduleProof SamplerThms MalaThms SamplerMain.
Import ListNotations.
Open Scope Z_scope.

(** ** C44 (arrays part): a new sampler *)

(** Arrays exist exactly for the known names in [track]; they are zero and have
    nsamples rows; delta is the parameter's. *)
Theorem C44_new_sampler : forall V D K P G I (o : ops V D K P G I) prm delta s,
  new_sampler o prm delta = Ok s ->
  (i_logPi s = if str_in "logposterior" (p_track prm) then Some (repeat (o_zeroK o) (Z.to_nat (p_nsamples prm))) else None) /\
  (i_L2s s = if str_in "L2" (p_track prm) then Some (repeat (o_zeroK o) (Z.to_nat (p_nsamples prm))) else None) /\
  (i_priors s = if str_in "prior" (p_track prm) then Some (repeat (o_zeroK o) (Z.to_nat (p_nsamples prm))) else None) /\
  (i_preds s = if str_in "predictions" (p_track prm) then Some (repeat (o_zeroD o) (Z.to_nat (p_nsamples prm))) else None) /\
  (i_chain s = if str_in "chain" (p_track prm) then Some (repeat (o_zeroV o) (Z.to_nat (p_nsamples prm))) else None) /\
  i_delta s = delta /\ i_out s = [] /\ sized s (Z.to_nat (p_nsamples prm)).
Proof.
  intros V D K P G I o prm delta s H. pose proof (new_sampler_sized _ _ _ _ H) as Q.
  rewrite (new_sampler_inv _ _ _ _ H) in *. repeat split; try exact Q; apply Q.
Qed.
Print Assumptions C44_new_sampler.

Theorem C44_new_sampler_exists : forall V D K P G I (o : ops V D K P G I) prm delta,
  0 <= p_nsamples prm -> exists s, new_sampler o prm delta = Ok s.
Proof. exact (fun V D K P G I => @new_sampler_ok V D K P G I). Qed.
Print Assumptions C44_new_sampler_exists.

Example C44_case :
  new_sampler demo (demo_prm 2 0 0 0 ["chain"; "L2"; "nonsense"]%string) 7 =
  Ok (mkInst None (Some [0; 0]) None None (Some [0; 0]) None None 7 []).
Proof. reflexivity. Qed.

(** ** C01: the MYULA (and SKROCK) schedule *)

Theorem C01_myula_schedule : forall V D K P G I (o : ops V D K P G I) prm fuel start w w' n,
  sized (w_inst w) n -> p_nsamples prm = Z.of_nat n ->
  myula_run o prm fuel start w = (w', Ret tt) ->
  exists s tr l,
    starts o start (w_rng w) s /\
    path (myula_trans o (i_delta (w_inst w))) s tr /\
    List.length tr = total_iters (p_nburn prm) (p_ngap prm) n /\
    w_rng w' = snd (last tr s) /\
    List.length l = n /\ Forall (entry_ok o) l /\
    records o (w_inst w) (w_inst w') l /\
    (forall j e, nth_error l j = Some e ->
       exists st, nth_error tr (Z.to_nat (save_iter (p_nburn prm) (p_ngap prm) j)) = Some st /\ of_state st e).
Proof. exact (fun V D K P G I => gen_schedule myula_trans myula_run myula_events myula_reads (@myula_RUN V D K P G I)). Qed.
Print Assumptions C01_myula_schedule.

Theorem C01_skrock_schedule : forall V D K P G I (o : ops V D K P G I) prm fuel start w w' n,
  sized (w_inst w) n -> p_nsamples prm = Z.of_nat n ->
  skrock_run o prm fuel start w = (w', Ret tt) ->
  exists s tr l,
    starts o start (w_rng w) s /\
    path (skrock_trans o (i_delta (w_inst w))) s tr /\
    List.length tr = total_iters (p_nburn prm) (p_ngap prm) n /\
    w_rng w' = snd (last tr s) /\
    List.length l = n /\ Forall (entry_ok o) l /\
    records o (w_inst w) (w_inst w') l /\
    (forall j e, nth_error l j = Some e ->
       exists st, nth_error tr (Z.to_nat (save_iter (p_nburn prm) (p_ngap prm) j)) = Some st /\ of_state st e).
Proof. exact (fun V D K P G I => gen_schedule skrock_trans skrock_run skrock_events skrock_reads (@skrock_RUN V D K P G I)). Qed.
Print Assumptions C01_skrock_schedule.

(** what [save_iter] and [total_iters] are, as in the English statement *)
Theorem C01_schedule_formula : forall b g n j, 0 <= b -> 0 < g ->
  save_iter b g j = b + Z.of_nat j * g /\ save_iter b 0 j = b + Z.of_nat j /\
  total_iters b g 0 = 0%nat /\
  Z.of_nat (total_iters b g (S n)) = b + Z.of_nat n * g + 1 /\
  Z.of_nat (total_iters b 0 (S n)) = b + Z.of_nat n + 1.
Proof.
  intros b g n j Hb Hg. rewrite save_iter_formula, save_iter_formula0 by assumption.
  repeat (split; [reflexivity|]). unfold total_iters.
  rewrite save_iter_formula, save_iter_formula0 by assumption. split; apply Z2Nat.id; nia.
Qed.
Print Assumptions C01_schedule_formula.

(** a row is saved in iteration i exactly when i is on the thinning grid *)
Theorem C01_saved_iff_on_grid : forall nburn ngap i, 0 <= i ->
  (exists j, i = save_iter nburn ngap j) <-> on_grid nburn ngap i.
Proof. exact save_iter_on_grid. Qed.
Print Assumptions C01_saved_iff_on_grid.

(** it does return, after exactly that many iterations and not earlier *)
Theorem C01_myula_terminates : forall V D K P G I (o : ops V D K P G I) prm fuel start w n,
  total_ops o -> sized (w_inst w) n -> p_nsamples prm = Z.of_nat n ->
  (total_iters (p_nburn prm) (p_ngap prm) n <= fuel)%nat ->
  ~ line_array_missing (w_inst w) ->
  exists w', myula_run o prm fuel start w = (w', Ret tt).
Proof.
  exact (fun V D K P G I o prm fuel start w n A B C E F =>
    gen_terminates myula_trans myula_run myula_events myula_reads (@myula_RUN V D K P G I) o prm fuel start w n A B C E (fun _ _ => F)).
Qed.
Print Assumptions C01_myula_terminates.

Theorem C01_skrock_terminates : forall V D K P G I (o : ops V D K P G I) prm fuel start w n,
  total_ops o -> sized (w_inst w) n -> p_nsamples prm = Z.of_nat n ->
  (total_iters (p_nburn prm) (p_ngap prm) n <= fuel)%nat ->
  ~ line_array_missing (w_inst w) ->
  exists w', skrock_run o prm fuel start w = (w', Ret tt).
Proof.
  exact (fun V D K P G I o prm fuel start w n A B C E F =>
    gen_terminates skrock_trans skrock_run skrock_events skrock_reads (@skrock_RUN V D K P G I) o prm fuel start w n A B C E (fun _ _ => F)).
Qed.
Print Assumptions C01_skrock_terminates.

Theorem C01_not_before : forall V D K P G I (o : ops V D K P G I) prm fuel start w w' n,
  sized (w_inst w) n -> p_nsamples prm = Z.of_nat n ->
  myula_run o prm fuel start w = (w', Ret tt) \/ skrock_run o prm fuel start w = (w', Ret tt) ->
  (total_iters (p_nburn prm) (p_ngap prm) n <= fuel)%nat.
Proof.
  intros V D K P G I o prm fuel start w w' n A B [H|H].
  - exact (gen_not_before myula_trans myula_run myula_events myula_reads (@myula_RUN V D K P G I) o prm fuel start w w' _ n A B H eq_refl).
  - exact (gen_not_before skrock_trans skrock_run skrock_events skrock_reads (@skrock_RUN V D K P G I) o prm fuel start w w' _ n A B H eq_refl).
Qed.
Print Assumptions C01_not_before.

(** the number of iterations allowed does not influence a finished run *)
Theorem C01_fuel_irrelevant : forall V D K P G I (o : ops V D K P G I) prm f1 f2 start w w',
  (f1 <= f2)%nat ->
  (myula_run o prm f1 start w = (w', Ret tt) -> myula_run o prm f2 start w = (w', Ret tt)) /\
  (skrock_run o prm f1 start w = (w', Ret tt) -> skrock_run o prm f2 start w = (w', Ret tt)) /\
  (forall tune, pxmala_run o prm tune f1 start w = (w', Ret tt) -> pxmala_run o prm tune f2 start w = (w', Ret tt)).
Proof.
  exact (fun V D K P G I o prm f1 f2 start w w' H =>
    conj (myula_fuel o prm f1 f2 start w w' H) (conj (skrock_fuel o prm f1 f2 start w w' H)
      (fun tune => pxmala_fuel o prm tune f1 f2 start w w' H))).
Qed.
Print Assumptions C01_fuel_irrelevant.

(** 3 samples, burn-in 2, stride 2: 7 iterations, all rows written *)
Example C01_case :
  sized (w_inst (demo_world 3 11)) 3 /\
  (exists w', myula_run demo (demo_prm 3 2 2 2 all_tracks) 7 (Some 9) (demo_world 3 11) = (w', Ret tt) /\
              i_chain (w_inst w') = Some [-1; 3; 4]) /\
  (exists w', myula_run demo (demo_prm 3 2 2 2 all_tracks) 6 (Some 9) (demo_world 3 11) = (w', NoFuel)) /\
  total_iters 2 2 3 = 7%nat.
Proof.
  split; [apply (demo_sized 3)|]. split; [eexists; split; vm_compute; reflexivity|].
  split; [eexists; vm_compute; reflexivity|reflexivity].
Qed.
Example C01_case_skrock :
  exists w', skrock_run demo (demo_prm 3 2 2 2 all_tracks) 7 (Some 9) (demo_world 3 11) = (w', Ret tt) /\
             i_chain (w_inst w') = Some [0; -2; -2].
Proof. eexists; split; vm_compute; reflexivity. Qed.
(** a negative burn-in is accepted: the grid still contains nburn *)
Example C01_case_negative : save_iter (-5) 3 0 = 1 /\ on_grid (-5) 3 1.
Proof. split; [reflexivity|]. split; [lia|]. right. exists 2. lia. Qed.

(** ** C02: rows are aligned and true *)

Theorem C02_myula_rows : forall V D K P G I (o : ops V D K P G I) prm fuel start w w' n,
  sized (w_inst w) n -> p_nsamples prm = Z.of_nat n ->
  myula_run o prm fuel start w = (w', Ret tt) ->
  forall j, (j < n)%nat -> exists x, row_true o (w_inst w') j x.
Proof. exact (fun V D K P G I => gen_rows_true myula_trans myula_good myula_run myula_events myula_reads (@myula_RUN V D K P G I)). Qed.
Print Assumptions C02_myula_rows.

Theorem C02_skrock_rows : forall V D K P G I (o : ops V D K P G I) prm fuel start w w' n,
  sized (w_inst w) n -> p_nsamples prm = Z.of_nat n ->
  skrock_run o prm fuel start w = (w', Ret tt) ->
  forall j, (j < n)%nat -> exists x, row_true o (w_inst w') j x.
Proof. exact (fun V D K P G I => gen_rows_true skrock_trans skrock_good skrock_run skrock_events skrock_reads (@skrock_RUN V D K P G I)). Qed.
Print Assumptions C02_skrock_rows.

Theorem C02_pxmala_rows : forall V D K P G I (o : ops V D K P G I) prm tune fuel start w w' n,
  sized (w_inst w) n -> p_nsamples prm = Z.of_nat n ->
  pxmala_run o prm tune fuel start w = (w', Ret tt) ->
  forall j, (j < n)%nat -> exists x, row_true o (w_inst w') j x.
Proof.
  intros V D K P G I o prm tune fuel start w w' n HS HN H.
  destruct (mala_ref_ret _ _ _ _ _ _ _ _ HS HN H) as (k & _ & R). exact (mala_rows_true _ _ _ _ _ _ _ _ R).
Qed.
Print Assumptions C02_pxmala_rows.

(** the rows already saved when a run is stopped are true as well *)
Theorem C02_stopped_rows : forall V D K P G I (o : ops V D K P G I) prm fuel start w w' n,
  sized (w_inst w) n -> p_nsamples prm = Z.of_nat n ->
  myula_run o prm fuel start w = (w', NoFuel) \/ skrock_run o prm fuel start w = (w', NoFuel) ->
  forall j, save_iter (p_nburn prm) (p_ngap prm) j < Z.of_nat fuel -> exists x, row_true o (w_inst w') j x.
Proof.
  intros V D K P G I o prm fuel start w w' n A B [H|H].
  - exact (gen_rows_true_stopped myula_trans myula_good myula_run myula_events myula_reads (@myula_RUN V D K P G I) o prm fuel start w w' _ n A B H eq_refl).
  - exact (gen_rows_true_stopped skrock_trans skrock_good skrock_run skrock_events skrock_reads (@skrock_RUN V D K P G I) o prm fuel start w w' _ n A B H eq_refl).
Qed.
Print Assumptions C02_stopped_rows.

Example C02_case :
  exists w', pxmala_run demo (demo_prm 3 2 2 2 all_tracks) true 30 (Some 9) (demo_world 3 11) = (w', Ret tt) /\
             i_chain (w_inst w') = Some [1; 2; 2] /\ i_logPi (w_inst w') = Some [-2; -5; -5] /\
             row_true demo (w_inst w') 1 2.
Proof.
  eexists. split; [vm_compute; reflexivity|]. split; [reflexivity|]. split; [reflexivity|].
  exists 4, (-5, 1, 4). repeat split; simpl; eexists; split; reflexivity.
Qed.

(** ** C03: PxMALA refines the uncached Metropolis-Hastings reference *)

Theorem C03_pxmala_refines_reference : forall V D K P G I (o : ops V D K P G I) prm tune fuel start w w' n,
  sized (w_inst w) n -> p_nsamples prm = Z.of_nat n ->
  pxmala_run o prm tune fuel start w = (w', Ret tt) ->
  exists k, (k <= fuel)%nat /\ mh_reference o prm tune start w w' k n.
Proof. exact (fun V D K P G I => @mala_ref_ret V D K P G I). Qed.
Print Assumptions C03_pxmala_refines_reference.

Theorem C03_pxmala_refines_reference_stopped : forall V D K P G I (o : ops V D K P G I) prm tune fuel start w w' n,
  sized (w_inst w) n -> p_nsamples prm = Z.of_nat n ->
  pxmala_run o prm tune fuel start w = (w', NoFuel) ->
  exists m, (m < n)%nat /\ mh_reference o prm tune start w w' fuel m.
Proof. exact (fun V D K P G I => @mala_ref_stop V D K P G I). Qed.
Print Assumptions C03_pxmala_refines_reference_stopped.

(** the reference is deterministic *)
Theorem C03_reference_deterministic : forall V D K P G I (o : ops V D K P G I) tune start g x1 g1 x2 g2 d t1 t2,
  mh_starts o start g x1 g1 -> mh_starts o start g x2 g2 ->
  mh_path o tune 0 (x1, d, g1) t1 -> mh_path o tune 0 (x2, d, g2) t2 -> (List.length t1 <= List.length t2)%nat ->
  exists r, t2 = t1 ++ r.
Proof.
  intros V D K P G I o tune start g x1 g1 x2 g2 d t1 t2 A B.
  destruct (mh_starts_det _ _ _ _ _ _ _ A B) as (<- & <-). exact (mh_path_prefix o tune 0 _ t1 t2).
Qed.
Print Assumptions C03_reference_deterministic.

(** ** C04: the acceptance record *)

Theorem C04_acceptance : forall V D K P G I (o : ops V D K P G I) prm tune fuel start w w' n,
  sized (w_inst w) n -> p_nsamples prm = Z.of_nat n ->
  pxmala_run o prm tune fuel start w = (w', Ret tt) ->
  exists k x0 g0 tr accs,
    mh_starts o start (w_rng w) x0 g0 /\ List.length tr = k /\
    i_acc (w_inst w') = Some accs /\ List.length accs = k /\
    forall i acc x' d' g', nth_error tr i = Some (acc, (x', d', g')) ->
      exists x d g y g1 u a,
        mh_before (x0, i_delta (w_inst w), g0) tr i = (x, d, g) /\
        mh_proposes o d x g y g1 /\ mh_logalpha o d x y a /\ o_logrand o g1 = (u, g') /\
        nth_error accs i = Some (if o_kltb o u a then 1 else 0) /\
        acc = o_kltb o u a /\
        (o_kltb o u a = true -> x' = y) /\ (o_kltb o u a = false -> x' = x).
Proof.
  intros V D K P G I o prm tune fuel start w w' n HS HN H.
  destruct (mala_ref_ret _ _ _ _ _ _ _ _ HS HN H) as (k & _ & R). exists k. exact (mala_acceptance _ _ _ _ _ _ _ _ R).
Qed.
Print Assumptions C04_acceptance.

Example C04_case :
  exists w', pxmala_run demo (demo_prm 3 2 2 2 all_tracks) true 13 (Some 9) (demo_world 3 11) = (w', Ret tt) /\
             i_acc (w_inst w') = Some [1; 1; 0; 0; 1; 1; 0; 0; 1; 1; 0; 0; 1].
Proof. eexists. split; vm_compute; reflexivity. Qed.

(** ** C05: which iterates PxMALA saves *)

Theorem C05_saved_iterates : forall V D K P G I (o : ops V D K P G I) prm tune fuel start w w' n,
  sized (w_inst w) n -> p_nsamples prm = Z.of_nat n ->
  pxmala_run o prm tune fuel start w = (w', Ret tt) ->
  exists x g0 tr idx l,
    mh_starts o start (w_rng w) x g0 /\
    mh_path o tune 0 (x, i_delta (w_inst w), g0) tr /\
    accepted_on_grid (p_nburn prm) (p_ngap prm) tr idx /\
    Forall2 (mh_entry o tr) idx l /\ List.length l = n /\ records o (w_inst w) (w_inst w') l /\
    List.length tr = match n with O => O | S m => S (nth m idx O) end.
Proof. exact (fun V D K P G I => @mala_saved V D K P G I). Qed.
Print Assumptions C05_saved_iterates.

(** The documented meaning of nburn/ngap ("number of iterations between saved
    samples") fails: row 0 is not the state after iteration nburn. *)
Theorem C05_fixed_stride_refuted :
  exists (o : ops Z Z Z Z Z (option Z)) prm tune fuel start w w' x g0 tr row acc xb d g,
    sized (w_inst w) 1 /\ p_nsamples prm = 1 /\
    pxmala_run o prm tune fuel start w = (w', Ret tt) /\
    mh_starts o start (w_rng w) x g0 /\ mh_path o tune 0 (x, i_delta (w_inst w), g0) tr /\
    i_chain (w_inst w') = Some [row] /\
    nth_error tr (Z.to_nat (save_iter (p_nburn prm) (p_ngap prm) 0)) = Some (acc, (xb, d, g)) /\
    row <> xb.
Proof.
  exists demo, (demo_prm 1 2 2 0 all_tracks), true, 5%nat, (Some 9), (demo_world 1 11).
  do 2 eexists. exists 11.
  exists (match mh_exec demo true 0 (9, 1, 11) 3 with Some l => l | None => [] end).
  do 5 eexists.
  split; [apply (demo_sized 1)|]. split; [reflexivity|]. split; [vm_compute; reflexivity|].
  split; [split; [vm_compute; reflexivity|do 4 eexists; repeat split; vm_compute; reflexivity]|].
  split; [apply (mh_exec_sound _ _ 3); vm_compute; reflexivity|].
  split; [reflexivity|]. split; [vm_compute; reflexivity|]. discriminate.
Qed.
Print Assumptions C05_fixed_stride_refuted.

(** ** C06: termination of PxMALA *)

Theorem C06_terminates_iff : forall V D K P G I (o : ops V D K P G I) prm tune start w n,
  total_ops o -> sized (w_inst w) n -> p_nsamples prm = Z.of_nat n ->
  ((exists fuel w', pxmala_run o prm tune fuel start w = (w', Ret tt)) <->
   (exists x g0 tr idx,
      mh_starts o start (w_rng w) x g0 /\
      mh_path o tune 0 (x, i_delta (w_inst w), g0) tr /\
      accepted_on_grid (p_nburn prm) (p_ngap prm) tr idx /\ (n <= List.length idx)%nat)) /\
  (forall fuel, exists w', pxmala_run o prm tune fuel start w = (w', Ret tt) \/
                           pxmala_run o prm tune fuel start w = (w', NoFuel)).
Proof. exact (fun V D K P G I => @mala_terminates V D K P G I). Qed.
Print Assumptions C06_terminates_iff.

(** Persistent rejection: the loop never ends, whatever the schedule. *)
Theorem C06_always_terminates_refuted :
  exists o : ops Z Z Z Z Z (option Z), total_ops o /\
    forall prm tune x n g fuel, p_nsamples prm = Z.of_nat (S n) ->
      exists w', pxmala_run o prm tune fuel (Some x) (demo_world (Z.of_nat (S n)) g) = (w', NoFuel).
Proof. exact reject_forever. Qed.
Print Assumptions C06_always_terminates_refuted.

Example C06_case :
  exists w', pxmala_run demo_ok (demo_prm 3 2 2 2 all_tracks) true 13 (Some 9) (demo_world 3 11) = (w', Ret tt).
Proof. eexists. vm_compute. reflexivity. Qed.

(** ** C08: observation settings do not influence the chain *)

(** Two runs on the same random stream with any schedules, tracks and
    verbosities: rows saved in the same iteration are equal. *)
Theorem C08_myula_observation : forall V D K P G I (o : ops V D K P G I) prm1 prm2 f1 f2 start w1 w1' w2 w2' n1 n2 j k,
  sized (w_inst w1) n1 -> p_nsamples prm1 = Z.of_nat n1 ->
  sized (w_inst w2) n2 -> p_nsamples prm2 = Z.of_nat n2 ->
  myula_run o prm1 f1 start w1 = (w1', Ret tt) -> myula_run o prm2 f2 start w2 = (w2', Ret tt) ->
  w_rng w1 = w_rng w2 -> i_delta (w_inst w1) = i_delta (w_inst w2) ->
  (j < n1)%nat -> (k < n2)%nat ->
  save_iter (p_nburn prm1) (p_ngap prm1) j = save_iter (p_nburn prm2) (p_ngap prm2) k ->
  rows_agree (w_inst w1') j (w_inst w2') k.
Proof. exact (fun V D K P G I => gen_observation myula_trans myula_good myula_run myula_events myula_reads (@myula_RUN V D K P G I)). Qed.
Print Assumptions C08_myula_observation.

Theorem C08_skrock_observation : forall V D K P G I (o : ops V D K P G I) prm1 prm2 f1 f2 start w1 w1' w2 w2' n1 n2 j k,
  sized (w_inst w1) n1 -> p_nsamples prm1 = Z.of_nat n1 ->
  sized (w_inst w2) n2 -> p_nsamples prm2 = Z.of_nat n2 ->
  skrock_run o prm1 f1 start w1 = (w1', Ret tt) -> skrock_run o prm2 f2 start w2 = (w2', Ret tt) ->
  w_rng w1 = w_rng w2 -> i_delta (w_inst w1) = i_delta (w_inst w2) ->
  (j < n1)%nat -> (k < n2)%nat ->
  save_iter (p_nburn prm1) (p_ngap prm1) j = save_iter (p_nburn prm2) (p_ngap prm2) k ->
  rows_agree (w_inst w1') j (w_inst w2') k.
Proof. exact (fun V D K P G I => gen_observation skrock_trans skrock_good skrock_run skrock_events skrock_reads (@skrock_RUN V D K P G I)). Qed.
Print Assumptions C08_skrock_observation.

(** Longer runs append (equal schedules, j = k above); thinning is sub-sampling
    the unthinned chain: *)
Theorem C08_thinned_is_subsampled : forall b g j, 0 <= b -> 0 < g ->
  save_iter b g j = save_iter 0 0 (Z.to_nat b + j * Z.to_nat g) /\
  save_iter b g j = save_iter 0 1 (Z.to_nat b + j * Z.to_nat g).
Proof.
  intros b g j Hb Hg.
  rewrite (save_iter_formula b g j Hb Hg), (save_iter_formula0 0) by lia. rewrite (save_iter_formula 0 1) by lia.
  rewrite Nat2Z.inj_add, Nat2Z.inj_mul, !Z2Nat.id by lia. split; ring.
Qed.
Print Assumptions C08_thinned_is_subsampled.

Theorem C08_pxmala_prefix : forall V D K P G I (o : ops V D K P G I) prm1 prm2 tune f1 f2 start w1 w1' w2 w2' n1 n2 j,
  sized (w_inst w1) n1 -> p_nsamples prm1 = Z.of_nat n1 ->
  sized (w_inst w2) n2 -> p_nsamples prm2 = Z.of_nat n2 ->
  p_nburn prm1 = p_nburn prm2 -> p_ngap prm1 = p_ngap prm2 ->
  pxmala_run o prm1 tune f1 start w1 = (w1', Ret tt) -> pxmala_run o prm2 tune f2 start w2 = (w2', Ret tt) ->
  w_rng w1 = w_rng w2 -> i_delta (w_inst w1) = i_delta (w_inst w2) ->
  (j < n1)%nat -> (j < n2)%nat ->
  rows_agree (w_inst w1') j (w_inst w2') j.
Proof. exact (fun V D K P G I => @mala_prefix V D K P G I). Qed.
Print Assumptions C08_pxmala_prefix.

Example C08_case :
  exists w1 w2 c, myula_run demo (demo_prm 3 2 2 2 all_tracks) 7 (Some 9) (demo_world 3 11) = (w1, Ret tt) /\
    myula_run demo (demo_prm 7 0 0 0 ["chain"%string]) 7 (Some 9) (chain_only 7 11) = (w2, Ret tt) /\
    i_chain (w_inst w1) = Some [-1; 3; 4] /\ i_chain (w_inst w2) = Some c /\
    [nth 2 c 0; nth 4 c 0; nth 6 c 0] = [-1; 3; 4].
Proof. do 3 eexists. repeat match goal with |- _ /\ _ => split end; vm_compute; reflexivity. Qed.
Example C08_case_pxmala :
  exists w1 w2 c, pxmala_run demo (demo_prm 3 2 2 2 all_tracks) true 30 (Some 9) (demo_world 3 11) = (w1, Ret tt) /\
    pxmala_run demo (demo_prm 5 2 2 0 ["chain"%string]) true 60 (Some 9) (chain_only 5 11) = (w2, Ret tt) /\
    i_chain (w_inst w1) = Some [1; 2; 2] /\ i_chain (w_inst w2) = Some ([1; 2; 2] ++ c).
Proof. do 3 eexists. repeat match goal with |- _ /\ _ => split end; vm_compute; reflexivity. Qed.

(** ** C09: interrupted runs *)

Theorem C09_myula_stopped : forall V D K P G I (o : ops V D K P G I) prm f1 f2 start w w1' w2' n,
  sized (w_inst w) n -> p_nsamples prm = Z.of_nat n ->
  myula_run o prm f1 start w = (w1', NoFuel) -> myula_run o prm f2 start w = (w2', Ret tt) ->
  (forall j, save_iter (p_nburn prm) (p_ngap prm) j < Z.of_nat f1 ->
      (j < n)%nat /\ rows_agree (w_inst w1') j (w_inst w2') j) /\
  (forall j, Z.of_nat f1 <= save_iter (p_nburn prm) (p_ngap prm) j ->
      rows_agree (w_inst w1') j (w_inst w) j).
Proof. exact (fun V D K P G I => gen_stopped myula_trans myula_good myula_run myula_events myula_reads (@myula_RUN V D K P G I)). Qed.
Print Assumptions C09_myula_stopped.

Theorem C09_skrock_stopped : forall V D K P G I (o : ops V D K P G I) prm f1 f2 start w w1' w2' n,
  sized (w_inst w) n -> p_nsamples prm = Z.of_nat n ->
  skrock_run o prm f1 start w = (w1', NoFuel) -> skrock_run o prm f2 start w = (w2', Ret tt) ->
  (forall j, save_iter (p_nburn prm) (p_ngap prm) j < Z.of_nat f1 ->
      (j < n)%nat /\ rows_agree (w_inst w1') j (w_inst w2') j) /\
  (forall j, Z.of_nat f1 <= save_iter (p_nburn prm) (p_ngap prm) j ->
      rows_agree (w_inst w1') j (w_inst w) j).
Proof. exact (fun V D K P G I => gen_stopped skrock_trans skrock_good skrock_run skrock_events skrock_reads (@skrock_RUN V D K P G I)). Qed.
Print Assumptions C09_skrock_stopped.

Theorem C09_pxmala_stopped : forall V D K P G I (o : ops V D K P G I) prm tune f1 f2 start w w1' w2' n,
  sized (w_inst w) n -> p_nsamples prm = Z.of_nat n ->
  pxmala_run o prm tune f1 start w = (w1', NoFuel) -> pxmala_run o prm tune f2 start w = (w2', Ret tt) ->
  exists m, (m < n)%nat /\
  (forall j, (j < m)%nat -> rows_agree (w_inst w1') j (w_inst w2') j) /\
  (forall j, (m <= j)%nat -> rows_agree (w_inst w1') j (w_inst w) j) /\
  (exists accs1 accs2, i_acc (w_inst w1') = Some accs1 /\ i_acc (w_inst w2') = Some accs2 /\
     List.length accs1 = f1 /\ accs1 = firstn f1 accs2).
Proof. exact (fun V D K P G I => @mala_stopped V D K P G I). Qed.
Print Assumptions C09_pxmala_stopped.

(** An operator raised ([o1]); [o2] is the operator that would not have. *)
Theorem C09_myula_crashed : forall V D K P G I (o1 o2 : ops V D K P G I) prm f1 f2 start w w1' w2' n e,
  completes o1 o2 -> sized (w_inst w) n -> p_nsamples prm = Z.of_nat n ->
  myula_run o1 prm f1 start w = (w1', Exn e) -> myula_run o2 prm f2 start w = (w2', Ret tt) ->
  same_arrays (w_inst w1') (w_inst w) \/
  exists k, (k < f1)%nat /\
  (forall j, save_iter (p_nburn prm) (p_ngap prm) j < Z.of_nat k ->
      (j < n)%nat /\ rows_agree (w_inst w1') j (w_inst w2') j) /\
  (forall j, Z.of_nat k < save_iter (p_nburn prm) (p_ngap prm) j ->
      rows_agree (w_inst w1') j (w_inst w) j).
Proof. exact (fun V D K P G I => gen_crashed myula_trans myula_good myula_run myula_events myula_reads (@myula_RUN V D K P G I)). Qed.
Print Assumptions C09_myula_crashed.

Theorem C09_skrock_crashed : forall V D K P G I (o1 o2 : ops V D K P G I) prm f1 f2 start w w1' w2' n e,
  completes o1 o2 -> sized (w_inst w) n -> p_nsamples prm = Z.of_nat n ->
  skrock_run o1 prm f1 start w = (w1', Exn e) -> skrock_run o2 prm f2 start w = (w2', Ret tt) ->
  same_arrays (w_inst w1') (w_inst w) \/
  exists k, (k < f1)%nat /\
  (forall j, save_iter (p_nburn prm) (p_ngap prm) j < Z.of_nat k ->
      (j < n)%nat /\ rows_agree (w_inst w1') j (w_inst w2') j) /\
  (forall j, Z.of_nat k < save_iter (p_nburn prm) (p_ngap prm) j ->
      rows_agree (w_inst w1') j (w_inst w) j).
Proof. exact (fun V D K P G I => gen_crashed skrock_trans skrock_good skrock_run skrock_events skrock_reads (@skrock_RUN V D K P G I)). Qed.
Print Assumptions C09_skrock_crashed.

Theorem C09_pxmala_crashed : forall V D K P G I (o1 o2 : ops V D K P G I) prm tune f1 f2 start w w1' w2' n e,
  completes o1 o2 -> sized (w_inst w) n -> p_nsamples prm = Z.of_nat n ->
  pxmala_run o1 prm tune f1 start w = (w1', Exn e) -> pxmala_run o2 prm tune f2 start w = (w2', Ret tt) ->
  same_arrays (w_inst w1') (w_inst w) \/
  exists m, (m < n)%nat /\
  (forall j, (j < m)%nat -> rows_agree (w_inst w1') j (w_inst w2') j) /\
  (forall j, (m < j)%nat -> rows_agree (w_inst w1') j (w_inst w) j).
Proof. exact (fun V D K P G I => @mala_crashed V D K P G I). Qed.
Print Assumptions C09_pxmala_crashed.

(** the operator fails on the sample 4 reached in iteration 6: two rows are
    those of the full run, the third is still zero *)
Example C09_case :
  completes (demo_crash 4) demo /\
  (exists w', myula_run (demo_crash 4) (demo_prm 3 2 2 0 all_tracks) 20 (Some 9) (demo_world 3 11) = (w', Exn ValueError) /\
              i_chain (w_inst w') = Some [-1; 3; 0]) /\
  (exists w', myula_run demo (demo_prm 3 2 2 0 all_tracks) 5 (Some 9) (demo_world 3 11) = (w', NoFuel) /\
              i_chain (w_inst w') = Some [-1; 3; 0]).
Proof.
  split; [apply demo_crash_completes|]. split; eexists; split; vm_compute; reflexivity.
Qed.

(** ** C10 (order of effects): a rejected start point *)

Theorem C10_rejected_before_recording : forall V D K P G I (o : ops V D K P G I) prm fuel start w e g',
  o_init o start (w_rng w) = (Raise e, g') ->
  (exists w', myula_run o prm fuel start w = (w', Exn e) /\ w_inst w' = w_inst w /\ w_rng w' = g') /\
  (exists w', skrock_run o prm fuel start w = (w', Exn e) /\ w_inst w' = w_inst w /\ w_rng w' = g') /\
  (forall tune, exists w', pxmala_run o prm tune fuel start w = (w', Exn e) /\
     same_arrays (w_inst w') (w_inst w) /\ i_delta (w_inst w') = i_delta (w_inst w) /\
     i_out (w_inst w') = i_out (w_inst w) /\ w_rng w' = g').
Proof. exact (fun V D K P G I => @start_rejected V D K P G I). Qed.
Print Assumptions C10_rejected_before_recording.

Example C10_case : fst (o_init demo (Some (-1)) 11) = Raise ValueError.
Proof. reflexivity. Qed.

(** ** C11: running again *)

(** [w1] may be any state with arrays of the right length, in particular one
    left by any number of earlier runs; [w2] a fresh one. *)
Theorem C11_myula_rerun : forall V D K P G I (o : ops V D K P G I) prm f1 f2 start w1 w1' w2 w2' n,
  sized (w_inst w1) n -> sized (w_inst w2) n -> p_nsamples prm = Z.of_nat n ->
  myula_run o prm f1 start w1 = (w1', Ret tt) -> myula_run o prm f2 start w2 = (w2', Ret tt) ->
  w_rng w1 = w_rng w2 -> i_delta (w_inst w1) = i_delta (w_inst w2) ->
  same_tracking (w_inst w1) (w_inst w2) ->
  same_arrays (w_inst w1') (w_inst w2') /\ w_rng w1' = w_rng w2' /\
  sized (w_inst w1') n /\ i_delta (w_inst w1') = i_delta (w_inst w1).
Proof. exact (fun V D K P G I => gen_rerun myula_trans myula_good myula_run myula_events myula_reads (@myula_RUN V D K P G I)). Qed.
Print Assumptions C11_myula_rerun.

Theorem C11_skrock_rerun : forall V D K P G I (o : ops V D K P G I) prm f1 f2 start w1 w1' w2 w2' n,
  sized (w_inst w1) n -> sized (w_inst w2) n -> p_nsamples prm = Z.of_nat n ->
  skrock_run o prm f1 start w1 = (w1', Ret tt) -> skrock_run o prm f2 start w2 = (w2', Ret tt) ->
  w_rng w1 = w_rng w2 -> i_delta (w_inst w1) = i_delta (w_inst w2) ->
  same_tracking (w_inst w1) (w_inst w2) ->
  same_arrays (w_inst w1') (w_inst w2') /\ w_rng w1' = w_rng w2' /\
  sized (w_inst w1') n /\ i_delta (w_inst w1') = i_delta (w_inst w1).
Proof. exact (fun V D K P G I => gen_rerun skrock_trans skrock_good skrock_run skrock_events skrock_reads (@skrock_RUN V D K P G I)). Qed.
Print Assumptions C11_skrock_rerun.

Theorem C11_pxmala_rerun : forall V D K P G I (o : ops V D K P G I) prm tune f1 f2 start w1 w1' w2 w2' n,
  sized (w_inst w1) n -> sized (w_inst w2) n -> p_nsamples prm = Z.of_nat n ->
  pxmala_run o prm tune f1 start w1 = (w1', Ret tt) -> pxmala_run o prm tune f2 start w2 = (w2', Ret tt) ->
  w_rng w1 = w_rng w2 -> i_delta (w_inst w1) = i_delta (w_inst w2) ->
  same_tracking (w_inst w1) (w_inst w2) ->
  same_arrays (w_inst w1') (w_inst w2') /\ w_rng w1' = w_rng w2' /\
  i_acc (w_inst w1') = i_acc (w_inst w2') /\ i_deltas (w_inst w1') = i_deltas (w_inst w2') /\
  sized (w_inst w1') n.
Proof. exact (fun V D K P G I => @mala_rerun V D K P G I). Qed.
Print Assumptions C11_pxmala_rerun.

(** without tuning delta is kept, so the previous theorem applies to reruns *)
Theorem C11_pxmala_untuned_delta : forall V D K P G I (o : ops V D K P G I) prm fuel start w w' n,
  sized (w_inst w) n -> p_nsamples prm = Z.of_nat n ->
  pxmala_run o prm false fuel start w = (w', Ret tt) ->
  i_delta (w_inst w') = i_delta (w_inst w) /\ i_deltas (w_inst w') = Some [i_delta (w_inst w)].
Proof.
  intros V D K P G I o prm fuel start w w' n HS HN H.
  destruct (mala_ref_ret _ _ _ _ _ _ _ _ HS HN H) as (k & _ & R). exact (mala_untuned_delta _ _ _ _ _ _ _ R).
Qed.
Print Assumptions C11_pxmala_untuned_delta.

(** with tuning the second run of the same object can differ from a fresh one *)
Theorem C11_pxmala_tuned_rerun_refuted :
  exists (o : ops Z Z Z Z Z (option Z)) prm fuel start w w1 w2,
    sized (w_inst w) 3 /\ p_nsamples prm = 3 /\
    pxmala_run o prm true fuel start w = (w1, Ret tt) /\
    pxmala_run o prm true fuel start (mkWorld (w_inst w1) (w_rng w)) = (w2, Ret tt) /\
    ~ same_arrays (w_inst w1) (w_inst w2).
Proof.
  exists demo, (demo_prm 3 2 2 0 all_tracks), 60%nat, (Some 9), (demo_world 3 11). do 2 eexists.
  split; [apply (demo_sized 3)|]. split; [reflexivity|]. split; [vm_compute; reflexivity|].
  split; [vm_compute; reflexivity|]. intros H. vm_compute in H. destruct H as (H & _). discriminate.
Qed.
Print Assumptions C11_pxmala_tuned_rerun_refuted.

Example C11_case :
  exists w1 w2, myula_run demo (demo_prm 3 2 2 0 all_tracks) 7 (Some 9) (demo_world 3 11) = (w1, Ret tt) /\
    myula_run demo (demo_prm 3 2 2 0 all_tracks) 7 (Some 9) (mkWorld (w_inst w1) 11) = (w2, Ret tt) /\
    same_tracking (w_inst w1) (w_inst (demo_world 3 11)).
Proof. do 2 eexists. split; [vm_compute; reflexivity|]. split; [vm_compute; reflexivity|]. repeat split. Qed.

(** ** C43: progress lines *)

Theorem C43_myula_exceptions : forall V D K P G I (o : ops V D K P G I) prm fuel start w w' out n,
  total_ops o -> sized (w_inst w) n -> p_nsamples prm = Z.of_nat n ->
  (total_iters (p_nburn prm) (p_ngap prm) n <= fuel)%nat ->
  myula_run o prm fuel start w = (w', out) ->
  (out = Exn AttributeError <->
     line_array_missing (w_inst w) /\
     exists i, p_nburn prm <= i /\ 0 <= i < Z.of_nat (total_iters (p_nburn prm) (p_ngap prm) n) /\
               line_due (p_verbosity prm) i) /\
  (out <> Exn AttributeError -> out = Ret tt).
Proof. exact (fun V D K P G I => @myula_exceptions V D K P G I). Qed.
Print Assumptions C43_myula_exceptions.

Theorem C43_skrock_exceptions : forall V D K P G I (o : ops V D K P G I) prm fuel start w w' out n,
  total_ops o -> sized (w_inst w) n -> p_nsamples prm = Z.of_nat n ->
  (total_iters (p_nburn prm) (p_ngap prm) n <= fuel)%nat ->
  skrock_run o prm fuel start w = (w', out) ->
  (out = Exn AttributeError <->
     line_array_missing (w_inst w) /\
     exists i, 0 <= i < Z.of_nat (total_iters (p_nburn prm) (p_ngap prm) n) /\
               line_due (p_verbosity prm) i) /\
  (out <> Exn AttributeError -> out = Ret tt).
Proof. exact (fun V D K P G I => @skrock_exceptions V D K P G I). Qed.
Print Assumptions C43_skrock_exceptions.

Theorem C43_pxmala_no_exception : forall V D K P G I (o : ops V D K P G I) prm tune fuel start w w' out n e,
  total_ops o -> sized (w_inst w) n -> p_nsamples prm = Z.of_nat n ->
  pxmala_run o prm tune fuel start w = (w', out) -> out <> Exn e.
Proof. exact (fun V D K P G I => @mala_no_exception V D K P G I). Qed.
Print Assumptions C43_pxmala_no_exception.

(** with verbosity 0 nothing is due *)
Theorem C43_verbosity_zero : forall v i, v <= 0 -> ~ line_due v i.
Proof. exact (fun v i H L => proj1 (Z.le_ngt v 0) H (proj1 L)). Qed.
Print Assumptions C43_verbosity_zero.

(** everything MYULA prints: one group of lines per iteration, then "DONE" *)
Theorem C43_myula_lines : forall V D K P G I (o : ops V D K P G I) prm fuel start w w' n,
  sized (w_inst w) n -> p_nsamples prm = Z.of_nat n -> 0 <= p_nburn prm ->
  myula_run o prm fuel start w = (w', Ret tt) ->
  exists groups,
    i_out (w_inst w') = i_out (w_inst w) ++ List.concat groups ++ [EvDone] /\
    List.length groups = total_iters (p_nburn prm) (p_ngap prm) n /\
    forall k ev, nth_error groups k = Some ev ->
      (~ line_due (p_verbosity prm) (Z.of_nat k) -> ev = []) /\
      (line_due (p_verbosity prm) (Z.of_nat k) -> Z.of_nat k < p_nburn prm -> ev = [EvBurning]) /\
      (line_due (p_verbosity prm) (Z.of_nat k) -> p_nburn prm <= Z.of_nat k ->
         exists e, ev = [e] /\ shows_row (w_inst w') (saved_by (p_nburn prm) (p_ngap prm) k) e).
Proof. exact (fun V D K P G I => @myula_lines_final V D K P G I). Qed.
Print Assumptions C43_myula_lines.

(** SKROCK prints the stale last row (count 0) during burn-in *)
Theorem C43_skrock_lines : forall V D K P G I (o : ops V D K P G I) prm fuel start w w' n,
  sized (w_inst w) n -> p_nsamples prm = Z.of_nat n -> 0 <= p_nburn prm ->
  skrock_run o prm fuel start w = (w', Ret tt) ->
  exists groups,
    i_out (w_inst w') = i_out (w_inst w) ++ List.concat groups ++ [EvDone] /\
    List.length groups = total_iters (p_nburn prm) (p_ngap prm) n /\
    forall k ev, nth_error groups k = Some ev ->
      (~ line_due (p_verbosity prm) (Z.of_nat k) -> ev = []) /\
      (line_due (p_verbosity prm) (Z.of_nat k) -> Z.of_nat k < p_nburn prm ->
         exists lps l2s prs lp l2 pr,
           i_logPi (w_inst w) = Some lps /\ i_L2s (w_inst w) = Some l2s /\ i_priors (w_inst w) = Some prs /\
           nth_error lps (n - 1) = Some lp /\ nth_error l2s (n - 1) = Some l2 /\ nth_error prs (n - 1) = Some pr /\
           ev = [EvProgress 0 lp l2 pr None]) /\
      (line_due (p_verbosity prm) (Z.of_nat k) -> p_nburn prm <= Z.of_nat k ->
         exists e, ev = [e] /\ shows_row (w_inst w') (saved_by (p_nburn prm) (p_ngap prm) k) e).
Proof. exact (fun V D K P G I => @skrock_lines_final V D K P G I). Qed.
Print Assumptions C43_skrock_lines.

(** PxMALA prints the current state (which need not be saved), the number of
    saved samples and the acceptance record so far *)
Theorem C43_pxmala_lines : forall V D K P G I (o : ops V D K P G I) prm tune fuel start w w' n,
  sized (w_inst w) n -> p_nsamples prm = Z.of_nat n ->
  pxmala_run o prm tune fuel start w = (w', Ret tt) ->
  exists x g0 tr groups,
    mh_starts o start (w_rng w) x g0 /\ mh_path o tune 0 (x, i_delta (w_inst w), g0) tr /\
    i_out (w_inst w') = i_out (w_inst w) ++ List.concat groups ++ [EvDone] /\
    List.length groups = List.length tr /\
    forall k ev, nth_error groups k = Some ev ->
      (~ line_due (p_verbosity prm) (Z.of_nat k) -> ev = []) /\
      (line_due (p_verbosity prm) (Z.of_nat k) ->
        exists acc y delta g d lp l2 pr idx,
          nth_error tr k = Some (acc, (y, delta, g)) /\
          o_forward o y = Ok d /\ o_logpi o y d = Ok (lp, l2, pr) /\
          accepted_on_grid (p_nburn prm) (p_ngap prm) (firstn (S k) tr) idx /\
          ev = [EvProgress (Z.of_nat (List.length idx)) lp l2 pr
                                       (Some (map (fun p => b2z (fst p)) (firstn (S k) tr)))]).
Proof. exact (fun V D K P G I => @mala_lines_final V D K P G I). Qed.
Print Assumptions C43_pxmala_lines.

Example C43_case_lines :
  exists w', myula_run demo (demo_prm 3 2 2 2 all_tracks) 7 (Some 9) (demo_world 3 11) = (w', Ret tt) /\
    i_out (w_inst w') = [EvBurning; EvProgress 1 (-26) 25 1 None; EvProgress 2 (-18) 9 9 None; EvDone].
Proof. eexists. split; vm_compute; reflexivity. Qed.
Example C43_case_missing :
  total_ops demo_ok /\ line_array_missing (w_inst (chain_only 3 11)) /\
  exists w', myula_run demo_ok (demo_prm 3 2 2 3 ["chain"%string]) 7 (Some 9) (chain_only 3 11) = (w', Exn AttributeError).
Proof. split; [apply demo_ok_total|]. split; [left; reflexivity|]. eexists. vm_compute. reflexivity. Qed.
