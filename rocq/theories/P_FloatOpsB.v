(** C63: infinite entries and data errors of zero. *)
From Coq Require Import List ZArith Lia Bool Reals Lra Psatz String.
From Coquelicot Require Import Coquelicot.
From Verif Require Import PyBase PyBaseFacts Sampler SamplerSpec Ieee IeeeProof P_Ieee P_Samplers P_Mcmc FloatOps P_FloatOps.
Import ListNotations.
Notation length := List.length.
Open Scope R_scope.

(** ** an infinite entry is NaN one step later *)

Theorem C63_infinite_entry : forall rnd G (randn laplace : nat -> G -> list R * G) rand lmda mu n rows data ws t delta X d g X' d' g' i,
  t <> PInf -> nth_error X i = Some PInf \/ nth_error X i = Some NInf ->
  myula_trans (fl_ops rnd randn laplace rand (f_paths rnd n rows data ws (FScal t)) lmda mu) delta (X, d, g) (X', d', g') ->
  nan_at i X'.
Proof.
  intros rnd G randn laplace rand lmda mu n rows data ws t delta X d g X' d' g' i Ht Hi (gr & p & A1 & B1 & S1 & F1).
  cbn [fl_ops o_gradg o_proxf o_step o_forward] in *. eapply step_nan; [exact S1|]. right. left.
  cbn [fp_proxf f_paths f_soft] in B1. injection B1 as <-. unfold nan_at. rewrite nth_error_map.
  destruct Hi as [-> | ->]; cbn [option_map]; f_equal; apply (C63_soft_specials rnd t); auto.
Qed.
Print Assumptions C63_infinite_entry.

(** ** a data error of zero *)

(** NaN or at least zero *)
Definition nonneg (a : float) : Prop := a = NaN \/ fle (Fin 0) a.

Lemma rnd_nonneg : forall rnd F x, rounding rnd F -> 0 <= x -> fle (Fin 0) (rnd x).
Proof. intros rnd F x H Hx. rewrite <- (ro_fix _ _ H 0 (ro_zero _ _ H)). apply (ro_mono _ _ H); auto. Qed.
Lemma finf_pos : forall x, 0 < x -> finf x = PInf.
Proof. intros x H. unfold finf. destruct (total_order_T x 0) as [[L|E]|L]; [lra|lra|reflexivity]. Qed.
Lemma finf_neg : forall x, x < 0 -> finf x = NInf.
Proof. intros x H. unfold finf. destruct (total_order_T x 0) as [[L|E]|L]; [reflexivity|lra|lra]. Qed.
Lemma finf_zero : finf 0 = NaN.
Proof. unfold finf. destruct (total_order_T 0 0) as [[L|E]|L]; [lra|reflexivity|lra]. Qed.
Lemma finf_nonneg : forall x, 0 <= x -> nonneg (finf x).
Proof.
  intros x H. destruct (Req_dec x 0) as [->|N]; [left; apply finf_zero|right; rewrite finf_pos by lra; exact I].
Qed.

(** the weights *)
Theorem C63_weights : forall rnd F s, rounding rnd F ->
  List.Forall nonneg (f_weights rnd s) /\ length (f_weights rnd s) = length s /\
  (forall k, nth_error s k = Some (Fin 0) -> nth_error (f_weights rnd s) k = Some PInf) /\
  (forall k, nth_error s k = Some PInf \/ nth_error s k = Some NInf -> nth_error (f_weights rnd s) k = Some (Fin 0)) /\
  (forall k, nth_error s k = Some NaN -> nth_error (f_weights rnd s) k = Some NaN).
Proof.
  intros rnd F s H. unfold f_weights. split; [|split; [apply map_length|split; [|split]]].
  - apply Forall_forall. intros w Hw. apply in_map_iff in Hw. destruct Hw as (a & <- & _). destruct a as [r| | |].
    + cbn [fmul]. assert (B := rnd_nonneg _ _ (r * r) H ltac:(nra)). destruct (rnd (r * r)) as [y| | |]; cbn in B; try contradiction.
      * cbn [fdiv]. destruct (Req_EM_T y 0); [right; rewrite finf_pos by lra; exact I|]. right. apply (rnd_nonneg _ _ _ H).
        unfold Rdiv. rewrite Rmult_1_l. left. apply Rinv_0_lt_compat. lra.
      * cbn. right. apply Rle_refl.
    + right. cbn. apply Rle_refl.
    + right. cbn. apply Rle_refl.
    + left. reflexivity.
  - intros k Hk. rewrite nth_error_map, Hk. cbn [option_map fmul]. rewrite Rmult_0_l, (ro_fix _ _ H 0 (ro_zero _ _ H)). cbn [fdiv].
    destruct (Req_EM_T 0 0); [|contradiction]. now rewrite finf_pos by lra.
  - intros k Hk. rewrite nth_error_map. destruct Hk as [-> | ->]; reflexivity.
  - intros k Hk. rewrite nth_error_map, Hk. reflexivity.
Qed.
Print Assumptions C63_weights.

(** one term of the sum of squares *)
Lemma term_nonneg : forall rnd F w d, rounding rnd F -> nonneg w ->
  nonneg (fmul rnd d (fadd rnd (Fin 0) (fmul rnd w d))) /\
  (w = PInf -> let v := fmul rnd d (fadd rnd (Fin 0) (fmul rnd w d)) in v = NaN \/ v = PInf).
Proof.
  intros rnd F w d H Hw.
  assert (Z : forall x y, rnd x = Fin y -> rnd (0 + y) = Fin y).
  { intros x y E. rewrite Rplus_0_l. apply (ro_fix _ _ H). eapply (ro_in _ _ H); eauto. }
  assert (I : w = PInf -> let v := fmul rnd d (fadd rnd (Fin 0) (fmul rnd w d)) in v = NaN \/ v = PInf).
  { intros ->. destruct d as [r| | |]; cbn; auto. destruct (Rtotal_order r 0) as [L|[->|L]].
    - rewrite (finf_neg r L). cbn. auto.
    - rewrite finf_zero. cbn. auto.
    - rewrite (finf_pos r L). cbn. auto. }
  split; [|exact I]. destruct Hw as [->|Hw].
  - left. cbn. apply fmul_nan_r.
  - destruct w as [a| | |]; cbn in Hw; try contradiction.
    + destruct d as [r| | |].
      * cbn [fmul]. destruct (Rle_dec 0 r) as [P|P].
        -- assert (B := rnd_nonneg _ _ (a * r) H ltac:(nra)). destruct (rnd (a * r)) as [y| | |] eqn:E; cbn in B; try contradiction; cbn [fadd].
           ++ rewrite (Z _ _ E). right. cbn [fmul]. apply (rnd_nonneg _ _ _ H). nra.
           ++ cbn [fmul]. apply finf_nonneg; auto.
        -- assert (B := rnd_nonneg _ _ (- (a * r)) H ltac:(nra)). rewrite (ro_sym _ _ H) in B.
           destruct (rnd (a * r)) as [y| | |] eqn:E; cbn in B; try contradiction; cbn [fadd].
           ++ rewrite (Z _ _ E). right. cbn [fmul]. apply (rnd_nonneg _ _ _ H). nra.
           ++ cbn [fmul]. rewrite finf_neg by lra. right. exact Logic.I.
      * cbn [fmul]. destruct (Req_dec a 0) as [->|N]; [rewrite finf_zero; left; reflexivity|]. rewrite finf_pos by lra. right. exact Logic.I.
      * cbn [fmul]. destruct (Req_dec a 0) as [->|N]; [rewrite finf_zero; left; reflexivity|]. rewrite finf_pos by lra. right. exact Logic.I.
      * left. reflexivity.
    + destruct (I eq_refl) as [->| ->]; [left; reflexivity|right; exact Logic.I].
Qed.

Lemma sum_nonneg : forall rnd F l z, rounding rnd F -> nonneg z -> List.Forall nonneg l ->
  nonneg (fold_left (fadd rnd) l z) /\
  ((z = NaN \/ z = PInf) \/ In PInf l \/ In NaN l -> fold_left (fadd rnd) l z = NaN \/ fold_left (fadd rnd) l z = PInf).
Proof.
  intros rnd F l z H Hz HF. revert z Hz. induction HF as [|a l Ha HF IH]; intros z Hz; cbn [fold_left].
  - split; [auto|]. intros [?|[[]|[]]]; auto.
  - assert (Q : nonneg (fadd rnd z a) /\ ((z = NaN \/ z = PInf) \/ a = PInf \/ a = NaN -> fadd rnd z a = NaN \/ fadd rnd z a = PInf)).
    { destruct Hz as [->|Hz]; [cbn; split; auto; left; reflexivity|].
      destruct Ha as [->|Ha]; [rewrite fadd_nan_r; split; auto; left; reflexivity|].
      destruct z as [x| | |]; cbn in Hz; try contradiction; destruct a as [y| | |]; cbn in Ha; try contradiction; cbn [fadd].
      - split; [right; apply (rnd_nonneg _ _ _ H); lra|intros [[?|?]|[?|?]]; discriminate].
      - split; [right; exact I|auto].
      - split; [right; exact I|auto].
      - split; [right; exact I|auto]. }
    destruct Q as (Q1 & Q2). destruct (IH _ Q1) as (I1 & I2). split; [auto|]. intros C. apply I2.
    destruct C as [C|[[C|C]|[C|C]]]; auto.
Qed.

Lemma nth_combine : forall (ws : fvec) s k w, nth_error ws k = Some w ->
  nth_error (map (fun p : nat * float => [p]) (combine (seq s (length ws)) ws)) k = Some [((s + k)%nat, w)].
Proof.
  induction ws as [|a ws IH]; intros s k w E; [destruct k; discriminate|]. destruct k as [|k]; cbn in *.
  - injection E as ->. now rewrite Nat.add_0_r.
  - rewrite (IH (S s) k w E). do 3 f_equal. lia.
Qed.

(** the log posterior of a problem with errors, one of them zero, is NaN or minus
    infinity for every X and all predictions *)
Theorem C63_zero_error : forall rnd F mu n rows data sig T X preds k v L2 p, rounding rnd F ->
  nth_error sig k = Some (Fin 0) ->
  f_logpi rnd (f_paths rnd n rows data (f_weights rnd sig) T) mu X preds = Ok (v, L2, p) ->
  (L2 = NaN \/ L2 = PInf) /\ (v = NaN \/ v = NInf).
Proof.
  intros rnd F mu n rows data sig T X preds k v L2 p H Hk. destruct (C63_weights rnd F sig H) as (W1 & WL & W2 & _).
  specialize (W2 k Hk). set (ws := f_weights rnd sig) in *. clearbody ws.
  unfold f_logpi. cbn [f_paths fp_data fp_invcov fp_prior].
  destruct (fzip (fsub rnd) data preds) as [diff|]; [|discriminate]. cbn [rbind].
  unfold f_matvec. rewrite !map_length, combine_length, seq_length, Nat.min_id.
  destruct (Nat.eqb (length ws) (length diff)) eqn:EL; [|discriminate]. cbn [rbind]. apply Nat.eqb_eq in EL.
  rewrite map_length, map_length, combine_length, seq_length, Nat.min_id, <- EL, Nat.eqb_refl. cbn [rbind].
  set (terms := map (fun q : float * float => fmul rnd (fst q) (snd q))
     (combine diff (map (fun r => fspdot rnd r diff) (map (fun p0 => [p0]) (combine (seq 0 (length ws)) ws))))).
  assert (TM : forall j w, nth_error ws j = Some w -> exists dj, nth_error terms j = Some (fmul rnd dj (fadd rnd (Fin 0) (fmul rnd w dj)))).
  { intros j w Ej. assert (Lj : (j < length diff)%nat) by (rewrite <- EL; apply nth_error_Some; congruence).
    destruct (nth_error diff j) as [dj|] eqn:Ed; [|apply nth_error_None in Ed; lia]. exists dj. unfold terms. rewrite nth_error_map.
    assert (C : forall (A B : Type) (a : list A) (b : list B) i x y, nth_error a i = Some x -> nth_error b i = Some y -> nth_error (combine a b) i = Some (x, y)).
    { clear. induction a as [|a0 a IH]; intros b i x y Ha Hb; [destruct i; discriminate|]. destruct b as [|b0 b]; [destruct i; discriminate|].
      destruct i; cbn in *; [congruence|now apply IH]. }
    rewrite (C _ _ _ _ j dj (fadd rnd (Fin 0) (fmul rnd w dj))); [reflexivity|auto|].
    rewrite nth_error_map, (nth_combine ws 0 j w Ej). cbn [option_map]. f_equal. unfold fspdot, fsum. cbn [map fold_left fst snd].
    now rewrite Nat.add_0_l, (nth_error_nth _ _ _ Ed). }
  assert (LT : length terms = length ws) by (unfold terms; rewrite map_length, combine_length, map_length, map_length, combine_length, seq_length; lia).
  assert (TF : List.Forall nonneg terms).
  { apply Forall_forall. intros x Hx. apply In_nth_error in Hx. destruct Hx as (j & Ej).
    assert (Lj : (j < length ws)%nat) by (rewrite <- LT; apply nth_error_Some; congruence).
    destruct (nth_error ws j) as [w|] eqn:Ew; [|apply nth_error_None in Ew; lia].
    destruct (TM j w Ew) as (dj & Ed). rewrite Ej in Ed. injection Ed as ->. apply (term_nonneg rnd F); [auto|].
    rewrite Forall_forall in W1. apply W1. eapply nth_error_In; eauto. }
  assert (TI : In PInf terms \/ In NaN terms).
  { destruct (TM k PInf W2) as (dj & Ed). apply nth_error_In in Ed.
    destruct (proj2 (term_nonneg rnd F PInf dj H (or_intror I)) eq_refl) as [E|E]; rewrite E in Ed; auto. }
  assert (S := proj2 (sum_nonneg rnd F terms (Fin 0) H (or_intror (Rle_refl 0)) TF) (or_intror TI)).
  destruct (f_l1 rnd X) as [pp| | |] eqn:EP; intros E; injection E as <- <- <-; split; try exact S;
    unfold fdot, fsum; fold terms; unfold fsub; destruct S as [-> | ->]; cbn [fneg]; rewrite ?fadd_nan_r; auto.
  all: destruct mu as [m| | |]; cbn [fneg fmul]; try (destruct (rnd _)); try (destruct (finf _)); cbn; auto.
Qed.
Print Assumptions C63_zero_error.

(** PxMALA then accepts nothing: a run never returns, and if it is stopped it has
    recorded nothing *)
Theorem C63_zero_error_pxmala : forall rnd F G (randn laplace : nat -> G -> list R * G) rand lmda mu npix rows data sig T
    prm tune fuel start w w' N r k,
  let o := fl_ops rnd randn laplace rand (f_paths rnd npix rows data (f_weights rnd sig) T) lmda mu in
  rounding rnd F -> nth_error sig k = Some (Fin 0) ->
  sized (w_inst w) N -> p_nsamples prm = Z.of_nat N -> (1 <= N)%nat ->
  pxmala_run o prm tune fuel start w = (w', r) ->
  r <> Ret tt /\
  (r = NoFuel -> i_acc (w_inst w') = Some (repeat 0%Z fuel) /\ same_arrays (w_inst w) (w_inst w')).
Proof.
  intros rnd F G randn laplace rand lmda mu npix rows data sig T prm tune fuel start w w' N r k o H Hk S EN N1 E.
  assert (NA : forall tn i s s', mh_trans o tn i s true s' -> False).
  { intros tn i ((x & dl) & g) ((x' & dl') & g') TR.
    assert (B := proj1 (proj2 (proj2 (proj2 (C58_accepted rnd G randn laplace rand _ lmda mu tn i x dl g _ TR))))). cbn [fst] in B.
    destruct TR as (y & g1 & u & a & P & A & U & Ac & EX & _). subst x'.
    destruct A as (dx & gx & px & lx & dy & gy & py & ly & qxy & qyx & F1 & F2 & F3 & F4 & F5 & F6 & F7 & F8 & _).
    destruct ly as ((v & l2) & p). destruct (B dy (v, l2, p) F5 F8) as (B1 & B2).
    destruct (C63_zero_error rnd F mu npix rows data sig T y dy k v l2 p H Hk F8) as (_ & [Z|Z]); [apply B1|apply B2]; exact Z. }
  assert (M : forall n m, mh_reference o prm tune start w w' n m ->
    m = 0%nat /\ i_acc (w_inst w') = Some (repeat 0%Z n) /\ same_arrays (w_inst w) (w_inst w')).
  { intros n m (x & g0 & tr & idx & l & _ & A2 & A3 & (_ & A4) & A5 & A6 & A7 & A8 & _).
    assert (FF : List.Forall (fun p => fst p = false) tr).
    { clear - A2 NA. induction A2 as [|i s acc s' l TR P IH]; constructor; [|exact IH]. destruct acc; [exfalso; eapply NA; exact TR|reflexivity]. }
    assert (idx = []).
    { destruct idx as [|k0 idx]; [reflexivity|]. destruct (proj1 (A4 k0) (or_introl eq_refl)) as (_ & s & Hs).
      rewrite Forall_forall in FF. discriminate (FF _ (nth_error_In _ _ Hs)). }
    subst idx. inversion A6; subst l. cbn in A5. split; [congruence|]. split.
    - rewrite A8. f_equal. rewrite <- A3. clear -FF. induction FF as [|p tr Hp F IH]; [reflexivity|].
      destruct p as [a s]. cbn in Hp. subst a. cbn [map List.length repeat fst b2z]. f_equal. exact IH.
    - unfold records in A7. cbn [map] in A7.
      assert (RA : forall (A B : Type) (c : A -> res B) a b, rec_arr c [] a b -> a = b).
      { intros A B c [a|] [b|]; cbn; intros R; try contradiction; [|reflexivity].
        destruct R as (rr & F0 & _ & ->). inversion F0. reflexivity. }
      destruct A7 as (R1 & R2 & R3 & R4 & R5). repeat split; eapply RA; eassumption. }
  split.
  - intros ->. destruct (C03_pxmala_refines_reference _ _ _ _ _ _ o prm tune fuel start w w' N S EN E) as (n & _ & R).
    destruct (M _ _ R) as (Z & _). lia.
  - intros ->. destruct (C03_pxmala_refines_reference_stopped _ _ _ _ _ _ o prm tune fuel start w w' N S EN E) as (m & _ & R).
    destruct (M _ _ R) as (_ & Z). exact Z.
Qed.
Print Assumptions C63_zero_error_pxmala.

(** MYULA: if the prediction of the datum misses the datum, the pixels on its
    path are infinite or NaN after one step and NaN after two *)
Definition nonfin (a : float) : Prop := forall r, a <> Fin r.
Lemma nonfin_add_l : forall rnd a b, nonfin a -> nonfin (fadd rnd a b).
Proof. intros rnd a b H r. destruct a as [x| | |]; [elim (H x eq_refl)| | |]; destruct b; cbn; discriminate. Qed.
Lemma nonfin_add_r : forall rnd a b, nonfin b -> nonfin (fadd rnd a b).
Proof. intros rnd a b H r. destruct b as [x| | |]; [elim (H x eq_refl)| | |]; destruct a; cbn; discriminate. Qed.
Lemma nonfin_neg : forall a, nonfin a -> nonfin (fneg a).
Proof. intros a H r. destruct a as [x| | |]; [elim (H x eq_refl)| | |]; cbn; discriminate. Qed.
Lemma nonfin_finf : forall x, nonfin (finf x).
Proof. intros x r. unfold finf. destruct (total_order_T x 0) as [[L|E]|L]; discriminate. Qed.
Lemma nonfin_mul_l : forall rnd a b, nonfin a -> nonfin (fmul rnd a b).
Proof. intros rnd a b H. destruct a as [x| | |]; [elim (H x eq_refl)| | |]; destruct b; cbn; try (intros ?; discriminate); try apply nonfin_finf; apply nonfin_neg, nonfin_finf. Qed.
Lemma nonfin_mul_r : forall rnd a b, nonfin b -> nonfin (fmul rnd a b).
Proof. intros rnd a b H. destruct b as [x| | |]; [elim (H x eq_refl)| | |]; destruct a; cbn; try (intros ?; discriminate); try apply nonfin_finf; apply nonfin_neg, nonfin_finf. Qed.
Lemma nonfin_sum : forall rnd l z, nonfin z \/ (exists a, In a l /\ nonfin a) -> nonfin (fold_left (fadd rnd) l z).
Proof.
  induction l as [|a l IH]; intros z H; cbn [fold_left]; [destruct H as [H|(? & [] & _)]; exact H|]. apply IH.
  destruct H as [H|(b & [->|Hb] & H)]; [left; now apply nonfin_add_l|left; now apply nonfin_add_r|right; eauto].
Qed.
Lemma nonfin_spdot : forall rnd r x i a v, In (i, a) r -> nth_error x i = Some v -> nonfin v -> nonfin (fspdot rnd r x).
Proof.
  intros rnd r x i a v H E N. unfold fspdot, fsum. apply nonfin_sum. right. exists (fmul rnd a v). split; [|now apply nonfin_mul_r].
  apply in_map_iff. exists (i, a). split; [|auto]. cbn [fst snd]. now rewrite (nth_error_nth _ _ _ E).
Qed.

Theorem C63_zero_error_myula : forall rnd F G (randn laplace : nat -> G -> list R * G) rand lmda mu n rows data sig t delta
    X d g X' d' g' k r dk y j b,
  let o := fl_ops rnd randn laplace rand (f_paths rnd n rows data (f_weights rnd sig) (FScal t)) lmda mu in
  rounding rnd F -> nth_error sig k = Some (Fin 0) ->
  nth_error d k = Some dk -> nth_error data k = Some y -> fsub rnd dk y <> Fin 0 ->
  nth_error rows k = Some r -> In (j, b) r -> (j < n)%nat ->
  myula_trans o delta (X, d, g) (X', d', g') ->
  (exists v, nth_error X' j = Some v /\ forall z, v <> Fin z) /\
  (t <> PInf -> forall X'' d'' g'', myula_trans o delta (X', d', g') (X'', d'', g'') -> nan_at j X'').
Proof.
  intros rnd F G randn laplace rand lmda mu n rows data sig t delta X d g X' d' g' k r dk y j b o H Hk Ed Ey NZ Er Ib Hj T1.
  assert (V : exists v, nth_error X' j = Some v /\ nonfin v).
  { destruct T1 as (gr & p & A1 & B1 & S1 & F1). cbn [o fl_ops o_gradg o_proxf o_step o_forward fp_gradg f_paths] in *.
    destruct (C63_weights rnd F sig H) as (_ & _ & W & _). specialize (W k Hk). set (ws := f_weights rnd sig) in *. clearbody ws.
    assert (VG : exists v, nth_error gr j = Some v /\ nonfin v).
    { unfold f_gradg in A1. destruct (fzip (fsub rnd) d data) as [df|] eqn:E1; [|discriminate]. cbn [rbind] in A1.
      assert (Edf := fzip_nth _ _ _ _ _ _ _ E1 Ed Ey). destruct (f_weigh rnd ws df) as [wd|] eqn:E2; [|discriminate]. cbn [rbind] in A1.
      unfold f_weigh in E2. assert (Ewd := fzip_nth _ _ _ _ _ _ _ E2 W Edf). cbn [fzerob orb] in Ewd.
      assert (Z : fzerob (fsub rnd dk y) = false).
      { destruct (fsub rnd dk y) as [q| | |]; cbn; try reflexivity. destruct (Req_EM_T q 0) as [->|]; [elim (NZ eq_refl)|reflexivity]. }
      rewrite Z in Ewd. unfold f_path_adjoint in A1. destruct (Nat.eqb _ _); [|discriminate]. injection A1 as <-.
      destruct (adjoint_row_has n rows j k r b Hj Er Ib) as (rr & Err & Irr).
      exists (fspdot rnd rr wd). rewrite nth_error_map, Err. split; [reflexivity|].
      eapply nonfin_spdot; [exact Irr|exact Ewd|]. apply nonfin_add_r, nonfin_mul_l. intros z; discriminate. }
    destruct VG as (v & Ev & Nv). unfold f_step in S1. destruct (randn _ g) as (wn & gn). apply (f_equal fst) in S1. cbn [fst] in S1.
    destruct (py_fdiv rnd delta lmda) as [q|]; [|discriminate]. cbn [rbind] in S1.
    match type of S1 with rbind ?e _ = _ => destruct e as [a|] eqn:EA; [|discriminate] end. cbn [rbind] in S1.
    match type of S1 with rbind ?e _ = _ => destruct e as [c|] eqn:EC; [|discriminate] end. cbn [rbind] in S1.
    assert (Ev' : nth_error (fscal rnd delta gr) j = Some (fmul rnd delta v)) by (unfold fscal; now rewrite nth_error_map, Ev).
    destruct (fzip_same_len_r _ _ _ _ _ _ EC Ev') as (x1 & _ & Ec). destruct (fzip_same_len _ _ _ _ _ _ S1 Ec) as (x2 & _ & Ex).
    eexists. split; [exact Ex|]. apply nonfin_add_l. unfold fsub. now apply nonfin_add_r, nonfin_neg, nonfin_mul_r. }
  destruct V as (v & Ev & Nv). split; [eauto|]. intros Nt X'' d'' g'' T2. destruct v as [z| | |]; [elim (Nv z eq_refl)| | |].
  - eapply C63_infinite_entry; [exact Nt|left; exact Ev|exact T2].
  - eapply C63_infinite_entry; [exact Nt|right; exact Ev|exact T2].
  - destruct T2 as (gr & p & A1 & B1 & S1 & F1). cbn [o fl_ops o_gradg o_proxf o_step o_forward] in *. eapply step_nan; [exact S1|]. left. exact Ev.
Qed.
Print Assumptions C63_zero_error_myula.

Theorem C63_zero_error_paths : forall rnd F G (randn laplace : nat -> G -> list R * G) rand lmda mu n rows data sig t delta
    X d g tr k r dk y j b,
  let o := fl_ops rnd randn laplace rand (f_paths rnd n rows data (f_weights rnd sig) (FScal t)) lmda mu in
  rounding rnd F -> nth_error sig k = Some (Fin 0) -> t <> PInf ->
  nth_error d k = Some dk -> nth_error data k = Some y -> fsub rnd dk y <> Fin 0 ->
  nth_error rows k = Some r -> In (j, b) r -> (j < n)%nat ->
  path (myula_trans o delta) (X, d, g) tr ->
  forall m X' d' g', (1 <= m)%nat -> nth_error tr m = Some (X', d', g') -> nan_at j X'.
Proof.
  intros rnd F G randn laplace rand lmda mu n rows data sig t delta X d g tr k r dk y j b o H Hk Nt Ed Ey NZ Er Ib Hj P m X' d' g' Hm Em.
  assert (ST : forall tr s, path (myula_trans o delta) s tr -> nan_at j (fst (fst s)) ->
             forall m X' d' g', nth_error tr m = Some (X', d', g') -> nan_at j X').
  { clear. induction tr as [|s1 tr IH]; intros s P N m X' d' g' E; [destruct m; discriminate|]. inversion P as [|? ? ? T1 Q1]; subst.
    assert (N1 : nan_at j (fst (fst s1))).
    { destruct s as ((x & e) & h). destruct s1 as ((x1 & e1) & h1). destruct T1 as (gr & p & A1 & B1 & S1 & F1).
      cbn [o fl_ops o_step fst] in *. eapply step_nan; [exact S1|]. left. exact N. }
    destruct m as [|m]; cbn in E; [injection E as ->; exact N1|]. eapply IH; eauto. }
  inversion P as [|? ? ? T1 Q1]; subst; [destruct m; discriminate|]. inversion Q1 as [|? ? ? T2 Q2]; subst; [destruct m as [|[|m]]; [lia|discriminate..]|].
  destruct s' as ((x1 & e1) & h1). destruct s'0 as ((x2 & e2) & h2).
  assert (N2 := proj2 (C63_zero_error_myula rnd F G randn laplace rand lmda mu n rows data sig t delta X d g x1 e1 h1 k r dk y j b H Hk Ed Ey NZ Er Ib Hj T1) Nt x2 e2 h2 T2).
  destruct m as [|[|m]]; [lia| |]; cbn in Em; [injection Em as <- <- <-; exact N2|]. eapply ST; [exact Q2|exact N2|exact Em].
Qed.
Print Assumptions C63_zero_error_paths.

(** ** runs end *)
Lemma paths_shapes : forall rnd n rows data ws T, length data = length rows -> length ws = length rows ->
  match T with FScal _ => True | FArr l => length l = n end ->
  float_shapes (f_paths rnd n rows data ws T) n (length rows).
Proof.
  intros rnd n rows data ws T L1 L2 LT. unfold float_shapes, f_paths. cbn.
  split; [reflexivity|]. split; [auto|]. split; [rewrite map_length, combine_length, seq_length; lia|].
  split. { intros x L. unfold f_path_forward. rewrite L, Nat.eqb_refl. eexists. split; [reflexivity|]. apply map_length. }
  split. { intros d L. unfold f_gradg. destruct (fzip_ok (fsub rnd) d data ltac:(lia)) as (df & -> & Ldf). cbn [rbind].
    unfold f_weigh. match goal with |- context [fzip ?op ws df] => destruct (fzip_ok op ws df ltac:(lia)) as (wd & -> & Lw) end. cbn [rbind].
    unfold f_path_adjoint. rewrite Lw, L2, Nat.eqb_refl. eexists. split; [reflexivity|]. unfold f_adjoint_rows. now rewrite !map_length, seq_length. }
  split; [|eauto]. intros x L. unfold f_soft. destruct T as [t|l].
  - eexists. split; [reflexivity|]. now rewrite map_length.
  - destruct (fzip_ok (fun z t => f_soft1 rnd t z) x l ltac:(lia)) as (v & E & Lv). exists v. split; [exact E|lia].
Qed.

Theorem C63_runs_end : forall rnd G (randn laplace : nat -> G -> list R * G) rand npix rows data ws T lmda mu prm tune fuel start w k,
  let o := fl_ops rnd randn laplace rand (f_paths rnd npix rows data ws T) lmda mu in
  (forall k g, length (fst (randn k g)) = k) -> (forall k g, length (fst (laplace k g)) = k) ->
  length data = length rows -> length ws = length rows ->
  match T with FScal _ => True | FArr l => length l = npix end ->
  lmda <> Fin 0 -> (forall x, start = Some x -> length x = npix) ->
  sized (w_inst w) k -> p_nsamples prm = Z.of_nat k -> ~ line_array_missing (w_inst w) ->
  ((total_iters (p_nburn prm) (p_ngap prm) k <= fuel)%nat -> exists w', myula_run o prm fuel start w = (w', Ret tt)) /\
  (exists w', pxmala_run o prm tune fuel start w = (w', Ret tt) \/ pxmala_run o prm tune fuel start w = (w', NoFuel)).
Proof.
  intros. apply (C58_runs_end rnd G randn laplace rand _ lmda mu npix (length rows)); auto. now apply paths_shapes.
Qed.
Print Assumptions C63_runs_end.

(** *** shapes: the assertions of forward and adjoint *)
Theorem C63_assertions : forall rnd npix rows X,
  (List.length X = npix -> exists d, f_path_forward rnd npix rows X = Ok d /\ List.length d = List.length rows) /\
  (List.length X <> npix -> f_path_forward rnd npix rows X = Raise AssertionError) /\
  (List.length X = List.length rows -> exists d, f_path_adjoint rnd npix rows X = Ok d /\ List.length d = npix) /\
  (List.length X <> List.length rows -> f_path_adjoint rnd npix rows X = Raise AssertionError).
Proof.
  intros rnd npix rows X. unfold f_path_forward, f_path_adjoint, f_adjoint_rows.
  split; [intros L; rewrite (proj2 (Nat.eqb_eq _ _) L); eexists; split; [reflexivity|apply map_length]|].
  split; [intros L; rewrite (proj2 (Nat.eqb_neq _ _) L); reflexivity|].
  split; [intros L; rewrite (proj2 (Nat.eqb_eq _ _) L); eexists; split; [reflexivity|rewrite !map_length; apply seq_length]|].
  intros L; rewrite (proj2 (Nat.eqb_neq _ _) L); reflexivity.
Qed.
Print Assumptions C63_assertions.

(** ** Concrete cases *)

(** integers up to 1000, rounding towards zero, infinities beyond *)
Definition chop_pos (x : R) : float := if Rle_dec 1001 x then PInf else Fin (IZR (up x - 1)).
Definition chop (x : R) : float := if Rlt_dec x 0 then fneg (chop_pos (- x)) else chop_pos x.
Definition small_int (y : R) : Prop := exists z : Z, y = IZR z /\ Rabs y <= 1000.

Lemma up_int : forall z, (up (IZR z) - 1 = z)%Z.
Proof.
  intros z. destruct (archimed (IZR z)) as (A & B). apply lt_IZR in A. rewrite <- minus_IZR in B. apply le_IZR in B. lia.
Qed.
Lemma chop_pos_fin : forall x, 0 <= x -> x < 1001 -> exists z, chop_pos x = Fin (IZR z) /\ (0 <= z <= 1000)%Z /\ IZR z <= x < IZR z + 1.
Proof.
  intros x H0 H1. unfold chop_pos. destruct (Rle_dec 1001 x); [lra|]. exists (up x - 1)%Z. split; [reflexivity|].
  destruct (archimed x) as (A & B). rewrite minus_IZR. assert (0 < up x)%Z by (apply lt_IZR; lra).
  assert (up x < 1002)%Z by (apply lt_IZR; lra). split; [lia|lra].
Qed.
Lemma chop_rounding : rounding chop small_int.
Proof.
  assert (FX : forall x, small_int x -> chop x = Fin x).
  { intros x (z & -> & B). assert (B' := B). apply Rabs_le_between in B'. unfold chop, chop_pos. destruct (Rlt_dec (IZR z) 0).
    - destruct (Rle_dec 1001 (- IZR z)); [lra|]. rewrite <- opp_IZR, up_int. cbn. rewrite opp_IZR. f_equal. lra.
    - destruct (Rle_dec 1001 (IZR z)); [lra|]. now rewrite up_int. }
  constructor.
  - exists 1%Z. rewrite Rabs_R1. lra.
  - exists 0%Z. rewrite Rabs_R0. lra.
  - exact FX.
  - intros x y. unfold chop. destruct (Rlt_dec x 0).
    + destruct (Rle_dec 1001 (- x)) as [L|L]; [unfold chop_pos; destruct (Rle_dec 1001 (- x)); [discriminate|contradiction]|].
      destruct (chop_pos_fin (- x) ltac:(lra) ltac:(lra)) as (z & -> & Bz & _). cbn. intros E. injection E as <-.
      exists (- z)%Z. rewrite opp_IZR, Rabs_Ropp, Rabs_pos_eq by (apply IZR_le; lia). split; [reflexivity|apply IZR_le; lia].
    + destruct (Rle_dec 1001 x) as [L|L]; [unfold chop_pos; destruct (Rle_dec 1001 x); [discriminate|contradiction]|].
      destruct (chop_pos_fin x ltac:(lra) ltac:(lra)) as (z & -> & Bz & _). intros E. injection E as <-.
      exists z. rewrite Rabs_pos_eq by (apply IZR_le; lia). split; [reflexivity|apply IZR_le; lia].
  - intros x. unfold chop, chop_pos. destruct (Rlt_dec x 0).
    + destruct (Rle_dec 1001 (- x)); discriminate.
    + destruct (Rle_dec 1001 x); discriminate.
  - intros x. destruct (Req_dec x 0) as [->|N].
    + rewrite Ropp_0, FX by (exists 0%Z; rewrite Rabs_R0; lra). cbn. now rewrite Ropp_0.
    + unfold chop. destruct (Rlt_dec x 0), (Rlt_dec (- x) 0); try lra.
      * unfold chop_pos. destruct (Rle_dec 1001 (- x)); cbn; [reflexivity|now rewrite Ropp_involutive].
      * now rewrite Ropp_involutive.
  - assert (PM : forall x y, 0 <= x -> x <= y -> fle (chop_pos x) (chop_pos y)).
    { intros x y Hx Hy. unfold chop_pos. destruct (Rle_dec 1001 x), (Rle_dec 1001 y); try exact I; try lra. cbn. apply IZR_le.
      destruct (archimed x), (archimed y). assert (up x < up y + 1)%Z; [|lia]. apply lt_IZR. rewrite plus_IZR. lra. }
    assert (PP : forall x, 0 <= x -> fle (Fin 0) (chop_pos x)).
    { intros x Hx. destruct (Rle_dec 1001 x) as [L|L]; [unfold chop_pos; destruct (Rle_dec 1001 x); [exact I|contradiction]|].
      destruct (chop_pos_fin x ltac:(lra) ltac:(lra)) as (z & -> & Bz & _). cbn. apply IZR_le. lia. }
    intros x y L. unfold chop. destruct (Rlt_dec x 0), (Rlt_dec y 0); try lra.
    + assert (Q := PM (- y) (- x) ltac:(lra) ltac:(lra)). destruct (chop_pos (- y)), (chop_pos (- x)); cbn in *; auto; lra.
    + assert (Q1 := PP (- x) ltac:(lra)). assert (Q2 := PP y ltac:(lra)). destruct (chop_pos (- x)), (chop_pos y); cbn in *; auto; lra.
    + apply PM; lra.
Qed.

(** four pixels; two paths, the first through pixels 0 and 1, the second through
    1 and 2; no path through pixel 3; data 1 and 1 *)
Definition two_rows : list (list (nat * float)) := [[(0%nat, Fin 1); (1%nat, Fin 1)]; [(1%nat, Fin 1); (2%nat, Fin 1)]].
Definition two_paths (sig : fvec) : fl_problem := f_paths chop 4 two_rows [Fin 1; Fin 1] (f_weights chop sig) (FScal (Fin 1)).
Definition two_ops (sig : fvec) := fl_ops chop zeros zeros (fun g : unit => (0, g)) (two_paths sig) (Fin 2) (Fin 1).

Lemma two_new : forall sig, exists s0, new_sampler (two_ops sig) unit_prm (Fin 1) = Ok s0 /\
  sized s0 2 /\ ~ line_array_missing s0 /\ i_chain s0 <> None /\ i_delta s0 = Fin 1.
Proof.
  intros sig. eexists. split; [reflexivity|]. split; [unfold sized; cbn; auto 10|].
  split; [unfold line_array_missing; cbn; intros [H|[H|H]]; discriminate|]. split; [cbn; discriminate|reflexivity].
Qed.
Lemma two_run : forall sig start s0, length sig = 2%nat -> (forall x, start = Some x -> length x = 4%nat) ->
  sized s0 2 -> ~ line_array_missing s0 -> i_chain s0 <> None ->
  (exists w' c, myula_run (two_ops sig) unit_prm 10 start (mkWorld s0 tt) = (w', Ret tt) /\ i_chain (w_inst w') = Some c /\ length c = 2%nat) /\
  forall tune fuel, exists w', pxmala_run (two_ops sig) unit_prm tune fuel start (mkWorld s0 tt) = (w', Ret tt) \/
                               pxmala_run (two_ops sig) unit_prm tune fuel start (mkWorld s0 tt) = (w', NoFuel).
Proof.
  intros sig start s0 Ls ST Z L NC.
  assert (LR : forall k g, length (fst (zeros k g)) = k) by (intros; apply repeat_length).
  assert (NZ : Fin 2 <> Fin 0) by (intros H; injection H; lra).
  pose proof (fun tune fuel => C63_runs_end chop unit zeros zeros (fun g => (0, g)) 4 two_rows [Fin 1; Fin 1] (f_weights chop sig) (FScal (Fin 1)) (Fin 2) (Fin 1)
    unit_prm tune fuel start (mkWorld s0 tt) 2 LR LR eq_refl ltac:(unfold f_weights; now rewrite map_length) I NZ ST Z eq_refl L) as A.
  split; [|intros tune fuel; exact (proj2 (A tune fuel))].
  destruct (proj1 (A false 10%nat)) as (w' & E); [vm_compute; repeat constructor|].
  assert (E' : myula_run (two_ops sig) unit_prm 10 start (mkWorld s0 tt) = (w', Ret tt)) by exact E.
  destruct (C01_myula_schedule _ _ _ _ _ _ (two_ops sig) unit_prm 10 start (mkWorld s0 tt) w' 2 Z eq_refl E') as (s & tr & l & _ & _ & _ & _ & LL & _ & RR & _).
  destruct RR as (_ & _ & _ & _ & RR). cbn [w_inst] in RR. destruct Z as (_ & _ & _ & _ & S5).
  destruct (i_chain s0) as [a0|]; [|now elim NC]. destruct (i_chain (w_inst w')) as [c|] eqn:EC; [|destruct RR].
  exists w', c. split; [exact E'|]. split; [exact EC|]. cbn in S5. destruct RR as (rws & F2 & LE & ->).
  assert (LR' : length (map e_X l) = length rws) by (clear - F2; induction F2; cbn; congruence).
  rewrite app_length, skipn_length. lia.
Qed.

(** with errors 1 and 1: a NaN at pixel 0 has reached pixels 1 and 2 in every row
    of the chain; a NaN at pixel 3 stays there, all other columns are those of the
    run without it.  With errors 0 and 1: no PxMALA run returns; MYULA's rows from
    the start (0, 0, 0, 0) are NaN at pixels 0 and 1. *)
Example C63_case :
  f_weights chop [Fin 1; Fin 0; Fin 500] = [Fin 1; PInf; Fin 0] /\
  f_soft1 chop (Fin 1) (Fin (-5)) = Fin (-4) /\ f_soft1 chop (Fin 1) PInf = NaN /\
  (exists s0 w' c, new_sampler (two_ops [Fin 1; Fin 1]) unit_prm (Fin 1) = Ok s0 /\
     myula_run (two_ops [Fin 1; Fin 1]) unit_prm 10 (Some [NaN; Fin 0; Fin 0; Fin 5]) (mkWorld s0 tt) = (w', Ret tt) /\
     i_chain (w_inst w') = Some c /\ length c = 2%nat /\ forall row, In row c -> nan_at 0 row /\ nan_at 1 row /\ nan_at 2 row) /\
  (exists s0 w1 w2 c1 c2, new_sampler (two_ops [Fin 1; Fin 1]) unit_prm (Fin 1) = Ok s0 /\
     myula_run (two_ops [Fin 1; Fin 1]) unit_prm 10 (Some [Fin 3; Fin 0; Fin 0; Fin 5]) (mkWorld s0 tt) = (w1, Ret tt) /\
     myula_run (two_ops [Fin 1; Fin 1]) unit_prm 10 (Some [Fin 3; Fin 0; Fin 0; NaN]) (mkWorld s0 tt) = (w2, Ret tt) /\
     i_chain (w_inst w1) = Some c1 /\ i_chain (w_inst w2) = Some c2 /\ length c1 = 2%nat /\ length c2 = 2%nat /\
     forall j r1 r2, nth_error c1 j = Some r1 -> nth_error c2 j = Some r2 -> agree 4 (fun i => i <> 3%nat) r1 r2 /\ nan_at 3 r2) /\
  (exists s0 w' c, new_sampler (two_ops [Fin 0; Fin 1]) unit_prm (Fin 1) = Ok s0 /\
     (forall tune fuel start, (forall x, start = Some x -> length x = 4%nat) ->
        exists w2, pxmala_run (two_ops [Fin 0; Fin 1]) unit_prm tune fuel start (mkWorld s0 tt) = (w2, NoFuel) /\ i_acc (w_inst w2) = Some (repeat 0%Z fuel)) /\
     myula_run (two_ops [Fin 0; Fin 1]) unit_prm 10 (Some [Fin 0; Fin 0; Fin 0; Fin 0]) (mkWorld s0 tt) = (w', Ret tt) /\
     i_chain (w_inst w') = Some c /\ length c = 2%nat /\ forall row, In row c -> nan_at 0 row /\ nan_at 1 row).
Proof.
  assert (CR := chop_rounding).
  assert (C0 : chop 0 = Fin 0) by apply (ro_fix _ _ CR), (ro_zero _ _ CR).
  assert (C1 : chop 1 = Fin 1) by apply (ro_fix _ _ CR), (ro_one _ _ CR).
  assert (ZR : forall k g, length (fst (zeros k g)) = k) by (intros; apply repeat_length).
  split; [|split; [|split; [|split; [|split]]]].
  - unfold f_weights. cbn [map fmul]. rewrite Rmult_1_r, Rmult_0_r, C0, C1. cbn [fdiv].
    destruct (Req_EM_T 1 0); [lra|]. destruct (Req_EM_T 0 0); [|lra]. rewrite finf_pos by lra.
    replace (1 / 1) with 1 by field. rewrite C1. do 3 f_equal. unfold chop, chop_pos. destruct (Rlt_dec (500 * 500) 0); [lra|].
    destruct (Rle_dec 1001 (500 * 500)); [reflexivity|lra].
  - destruct (C63_soft_numbers chop small_int (-5) 1 CR) as (y & E & B & S & _).
    { exists (-5)%Z. rewrite Rabs_left by lra. split; [reflexivity|lra]. } { lra. } { rewrite Rabs_left by lra. lra. }
    rewrite S. rewrite Rabs_left in E by lra. replace (- -5 - 1) with 4 in E by ring. rewrite (ro_fix _ _ CR) in E.
    + injection E as <-. unfold sgn. destruct (Rlt_dec (-5) 0); [|lra]. f_equal. ring.
    + exists 4%Z. rewrite Rabs_pos_eq by lra. split; [reflexivity|lra].
  - apply C63_soft_specials; [now left|discriminate].
  - destruct (two_new [Fin 1; Fin 1]) as (s0 & E0 & Z & L & NC & ED).
    destruct (proj1 (two_run [Fin 1; Fin 1] (Some [NaN; Fin 0; Fin 0; Fin 5]) s0 eq_refl ltac:(intros x H; injection H as <-; reflexivity) Z L NC)) as (w' & c & R & EC & LC).
    exists s0, w', c. split; [exact E0|]. split; [exact R|]. split; [exact EC|]. split; [exact LC|]. intros row Hr.
    apply In_nth_error in Hr. destruct Hr as (j & Ej).
    assert (W1 : f_weights chop [Fin 1; Fin 1] = [Fin 1; Fin 1]).
    { unfold f_weights. cbn [map fmul]. rewrite Rmult_1_r, C1. cbn [fdiv]. destruct (Req_EM_T 1 0); [lra|]. replace (1 / 1) with 1 by field. now rewrite C1. }
    assert (Z1 : fzerob (Fin 1) = false) by (cbn; destruct (Req_EM_T 1 0); [lra|reflexivity]).
    assert (S01 : share two_rows (f_weights chop [Fin 1; Fin 1]) 0 1).
    { rewrite W1. exists 0%nat, [(0%nat, Fin 1); (1%nat, Fin 1)], (Fin 1), (Fin 1), (Fin 1). cbn. auto 10. }
    assert (S12 : share two_rows (f_weights chop [Fin 1; Fin 1]) 1 2).
    { rewrite W1. exists 1%nat, [(1%nat, Fin 1); (2%nat, Fin 1)], (Fin 1), (Fin 1), (Fin 1). cbn. auto 10. }
    assert (SP := fun k l => C63_spread_runs chop unit zeros zeros (fun g => (0, g)) (Fin 2) (Fin 1) 4 two_rows [Fin 1; Fin 1] (f_weights chop [Fin 1; Fin 1]) (Fin 1)
      unit_prm 2 10 _ (mkWorld s0 tt) w' c Z eq_refl R EC 0%nat k l j row eq_refl).
    assert (K : forall k, (k <= 2)%nat -> (k <= S (Z.to_nat (save_iter (p_nburn unit_prm) (p_ngap unit_prm) j)))%nat).
    { intros k Hk. assert (j < 2)%nat by (rewrite <- LC; apply nth_error_Some; congruence). destruct j as [|[|j]]; [..|lia]; vm_compute; lia. }
    split; [|split].
    + apply (SP 0%nat); [reflexivity|exact Ej|apply K; lia].
    + apply (SP 1%nat); [|exact Ej|apply K; lia]. cbn. right. exists 1%nat. split; [lia|auto].
    + apply (SP 2%nat); [|exact Ej|apply K; lia]. cbn. right. exists 1%nat. split; [lia|]. split; [exact S01|]. right. exists 2%nat. split; [lia|auto].
  - destruct (two_new [Fin 1; Fin 1]) as (s0 & E0 & Z & L & NC & ED).
    destruct (proj1 (two_run [Fin 1; Fin 1] (Some [Fin 3; Fin 0; Fin 0; Fin 5]) s0 eq_refl ltac:(intros x H; injection H as <-; reflexivity) Z L NC)) as (w1 & c1 & R1 & EC1 & LC1).
    destruct (proj1 (two_run [Fin 1; Fin 1] (Some [Fin 3; Fin 0; Fin 0; NaN]) s0 eq_refl ltac:(intros x H; injection H as <-; reflexivity) Z L NC)) as (w2 & c2 & R2 & EC2 & LC2).
    exists s0, w1, w2, c1, c2. do 7 (split; [first [exact E0|exact R1|exact R2|exact EC1|exact EC2|exact LC1|exact LC2]|]).
    intros j r1 r2 Ej1 Ej2. split.
    + apply (proj2 (proj2 (C63_uncrossed_runs chop unit zeros zeros (fun g => (0, g)) (Fin 2) (Fin 1) 4 two_rows [Fin 1; Fin 1] (f_weights chop [Fin 1; Fin 1]) (Fin 1) ZR
        (fun i => i <> 3%nat) unit_prm 2 10 10 [Fin 3; Fin 0; Fin 0; Fin 5] [Fin 3; Fin 0; Fin 0; NaN] (mkWorld s0 tt) (mkWorld s0 tt) w1 w2 c1 c2 
        ltac:(intros i (r & a & Hr & Ha) ->; repeat (destruct Hr as [<-|Hr]; [repeat (destruct Ha as [Ha|Ha]; [discriminate Ha|]); destruct Ha|]); destruct Hr)
        ltac:(split; [reflexivity|split; [reflexivity|intros i Hi; destruct i as [|[|[|[|i]]]]; try reflexivity; now elim Hi]])
        Z Z eq_refl eq_refl eq_refl R1 R2 EC1 EC2)) j r1 r2 Ej1 Ej2).
    + apply (C63_spread_runs chop unit zeros zeros (fun g => (0, g)) (Fin 2) (Fin 1) 4 two_rows [Fin 1; Fin 1] (f_weights chop [Fin 1; Fin 1]) (Fin 1)
        unit_prm 2 10 _ (mkWorld s0 tt) w2 c2 Z eq_refl R2 EC2 3%nat 0%nat 3%nat j r2 eq_refl eq_refl Ej2). lia.
  - destruct (two_new [Fin 0; Fin 1]) as (s0 & E0 & Z & L & NC & ED).
    destruct (proj1 (two_run [Fin 0; Fin 1] (Some [Fin 0; Fin 0; Fin 0; Fin 0]) s0 eq_refl ltac:(intros x H; injection H as <-; reflexivity) Z L NC)) as (w' & c & R & EC & LC).
    exists s0, w', c. split; [exact E0|]. split; [|split; [exact R|split; [exact EC|split; [exact LC|]]]].
    + intros tune fuel start ST. destruct (proj2 (two_run [Fin 0; Fin 1] start s0 eq_refl ST Z L NC) tune fuel) as (w2 & [E|E]); exists w2;
      destruct (C63_zero_error_pxmala chop small_int unit zeros zeros (fun g => (0, g)) (Fin 2) (Fin 1) 4 two_rows [Fin 1; Fin 1] [Fin 0; Fin 1] (FScal (Fin 1))
        unit_prm tune fuel start (mkWorld s0 tt) w2 2 _ 0%nat CR eq_refl Z eq_refl ltac:(lia) E) as (B1 & B2); [contradiction|].
      split; [exact E|]. exact (proj1 (B2 eq_refl)).
    + destruct (run_rows chop unit zeros zeros (fun g => (0, g)) (Fin 2) (Fin 1) 4 two_rows [Fin 1; Fin 1] (f_weights chop [Fin 0; Fin 1]) (Fin 1)
        unit_prm 2 10 _ (mkWorld s0 tt) w' c Z eq_refl R EC) as (tr & d & _ & Ed & P & _ & V).
      assert (D : d = [Fin 0; Fin 0]).
      { cbn in Ed. unfold fspdot, fsum in Ed. cbn in Ed. rewrite !Rmult_0_r, !C0 in Ed. cbn in Ed. rewrite !Rplus_0_r, !C0 in Ed. cbn in Ed. rewrite !Rplus_0_r, !C0 in Ed. now injection Ed as <-. }
      assert (NZ : fsub chop (Fin 0) (Fin 1) <> Fin 0).
      { unfold fsub. cbn. rewrite Rplus_0_l, (ro_sym _ _ CR), C1. cbn. intros H. injection H. lra. }
      intros row Hr. apply In_nth_error in Hr. destruct Hr as (j & Ej). destruct (V j row Ej) as (d' & g' & Et).
      assert (M1 : (1 <= Z.to_nat (save_iter (p_nburn unit_prm) (p_ngap unit_prm) j))%nat).
      { assert (j < 2)%nat by (rewrite <- LC; apply nth_error_Some; congruence). destruct j as [|[|j]]; [..|lia]; vm_compute; lia. }
      assert (NP : Fin 1 <> PInf) by discriminate. subst d.
      assert (Q := fun j b Hb Hj => C63_zero_error_paths chop small_int unit zeros zeros (fun g => (0, g)) (Fin 2) (Fin 1) 4 two_rows [Fin 1; Fin 1] [Fin 0; Fin 1] (Fin 1)
        (i_delta s0) [Fin 0; Fin 0; Fin 0; Fin 0] [Fin 0; Fin 0] tt tr 0%nat [(0%nat, Fin 1); (1%nat, Fin 1)] (Fin 0) (Fin 1) j b CR eq_refl NP eq_refl eq_refl NZ eq_refl Hb Hj P _ _ _ _ M1 Et).
      split; [apply (Q 0%nat (Fin 1)); [now left|lia]|apply (Q 1%nat (Fin 1)); [right; now left|lia]].
Qed.
Print Assumptions C63_case.
