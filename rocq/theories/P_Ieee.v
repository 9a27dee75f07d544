(** C58: not-a-number and infinite values in the samplers. *)
From Coq Require Import List ZArith Lia Bool Reals Lra String Sorted.
From Verif Require Import PyBase PyBaseFacts Sampler SamplerSpec SamplerFacts SamplerThms SamplerMain Ieee IeeeProof P_Samplers P_Works.
Import ListNotations.
Open Scope R_scope.

(** a new sampler's arrays hold none of these values; the samplers may write them *)
Definition rows_without_nan {D P} (s : inst fvec D float P) : Prop :=
  (forall rows row, i_chain s = Some rows -> In row rows -> ~ In NaN row) /\
  (forall vals v, i_logPi s = Some vals -> In v vals -> v <> NaN /\ v <> NInf).

Section A.
Variable rnd : R -> float.
Context {G : Type}.
Variable randn laplace : nat -> G -> list R * G.
Variable rand : G -> R * G.
Variable f : fl_problem.
Variable lmda mu : float.
Notation o := (fl_ops rnd randn laplace rand f lmda mu).

Lemma no_nan_in (x : fvec) : (forall i, ~ nan_at i x) -> ~ In NaN x.
Proof. intros H I. apply In_nth_error in I. destruct I as (i & E). exact (H i E). Qed.
Lemma nan_in (x : fvec) : In NaN x -> exists i, nan_at i x.
Proof. intros I. apply In_nth_error in I. exact I. Qed.

Lemma row_nan n x r : f_row n x = Ok r -> In NaN r -> In NaN x.
Proof.
  unfold f_row. destruct (Nat.eqb (List.length x) n); [congruence|]. destruct x as [|z [|? ?]]; try discriminate.
  intros E. injection E as <-. intros H. left. symmetry. eapply repeat_spec. exact H.
Qed.

Lemma rec_in {A B} (cast : A -> res B) l a0 a v :
  rec_arr cast l (Some a0) (Some a) -> In v a -> (exists x, In x l /\ cast x = Ok v) \/ In v a0.
Proof.
  cbn. intros (rows & F & L & ->) H. apply in_app_or in H. destruct H as [H|H].
  - left. clear -F H. induction F as [|x y l rows E F IH]; [destruct H|]. destruct H as [<-|H].
    + exists x. split; [now left|exact E].
    + destruct (IH H) as (z & Z & E'). exists z. split; [now right|exact E'].
  - right. rewrite <- (firstn_skipn (List.length l) a0). apply in_or_app. now right.
Qed.
Lemma rec_in_full {A B} (cast : A -> res B) l a0 a v :
  rec_arr cast l (Some a0) (Some a) -> List.length l = List.length a0 -> In v a -> exists x, In x l /\ cast x = Ok v.
Proof.
  cbn. intros (rows & F & L & ->) E H. rewrite E, skipn_all, app_nil_r in H.
  clear -F H. induction F as [|x y l rows E F IH]; [destruct H|]. destruct H as [<-|H].
  - exists x. split; [now left|exact E].
  - destruct (IH H) as (z & Z & E'). exists z. split; [now right|exact E'].
Qed.

Lemma Forall2_nth_r {A B} (R : A -> B -> Prop) l m j e : Forall2 R l m -> nth_error m j = Some e ->
  exists k, nth_error l j = Some k /\ R k e.
Proof.
  intros F. revert j. induction F as [|a b l m H F IH]; intros [|j] E; cbn in *; try discriminate.
  - injection E as <-. eauto.
  - exact (IH j E).
Qed.

Lemma exists_last_or_nil {A} (l : list A) : l = [] \/ exists l' a, l = l' ++ [a].
Proof. destruct l as [|a l] using rev_ind; [now left|right; eauto]. Qed.

(** ** one iteration *)

Lemma accepted_clean tune i x delta g s' : mh_trans o tune i (x, delta, g) true s' ->
  let y := fst (fst s') in
  ~ In NaN x /\ ~ In NaN y /\
  (forall d t, o_forward o x = Ok d -> o_logpi o x d = Ok t -> fst (fst t) <> NaN /\ fst (fst t) <> PInf) /\
  (forall d t, o_forward o y = Ok d -> o_logpi o y d = Ok t -> fst (fst t) <> NaN /\ fst (fst t) <> NInf) /\
  (keeps_sign rnd -> fltb (Fin 0) (fmul rnd (Fin (1 / 2)) delta) = true -> forall v, In v y -> exists r, v = Fin r).
Proof.
  destruct s' as [[x' delta'] g']. intros (y & g1 & u & a & P & A & U & Ac & E & _). cbn [fst].
  rewrite E. clear x' E. symmetry in Ac.
  destruct A as (dx & gx & px & lx & dy & gy & py & ly & qxy & qyx & F1 & F2 & F3 & F4 & F5 & F6 & F7 & F8 & Q1 & Q2 & ->).
  assert (Q1' := Q1). assert (Q2' := Q2). assert (Ac' := Ac). cbn in Q1', Q2', Ac'.
  destruct (accept_numbers rnd _ _ _ _ _ Ac') as (N1 & N2 & N3 & N4 & _).
  split; [|split; [|split; [|split]]].
  - intros H. destruct (nan_in _ H) as (k & K). apply N3. eapply (logtrans_nan rnd). exact Q1'. left. exact K.
  - intros H. destruct (nan_in _ H) as (k & K). apply N2. left. eapply (logtrans_nan rnd). exact Q2'. left. exact K.
  - intros d t Hd Ht. rewrite F1 in Hd. injection Hd as <-. rewrite F4 in Ht. injection Ht as <-. split; [exact N4|].
    intros Z. rewrite Z in Ac'. assert (L : low (fsub rnd (fsub rnd (fadd rnd qyx (fst (fst ly))) qxy) PInf)).
    { unfold fsub at 1. apply low_add_r. right. reflexivity. }
    rewrite (low_reject u _ L) in Ac'. discriminate.
  - intros d t Hd Ht. rewrite F5 in Hd. injection Hd as <-. rewrite F8 in Ht. injection Ht as <-.
    split; intros Z; apply N1; [now left|now right].
  - intros KS Hd v Hv. apply In_nth_error in Hv. destruct Hv as (k & K).
    destruct v as [r| | |]; [eauto| | |]; exfalso; apply N2;
      (eapply (logtrans_infinite rnd); [exact KS|exact Hd|exact Q2'|exact K|unfold infinite; auto]).
Qed.

Lemma path_all_false tune : forall tr i x delta g,
  (In NaN x \/ (exists d t, o_forward o x = Ok d /\ o_logpi o x d = Ok t /\ (fst (fst t) = NaN \/ fst (fst t) = PInf))) ->
  mh_path o tune i (x, delta, g) tr -> Forall (fun p => fst p = false /\ fst (fst (snd p)) = x) tr.
Proof.
  induction tr as [|[acc s'] tr IH]; intros i x delta g H P; [constructor|].
  inversion P as [|? ? ? ? ? T P']; subst. destruct acc.
  - exfalso. destruct (accepted_clean _ _ _ _ _ _ T) as (A & _ & B & _). destruct H as [H|(d & t & E1 & E2 & E3)]; [auto|].
    destruct (B d t E1 E2). destruct E3; contradiction.
  - destruct s' as [[x' delta'] g']. assert (x' = x).
    { destruct T as (y & g1 & u & a & _ & _ & _ & _ & E & _). exact E. }
    subst x'. constructor; [split; reflexivity|]. eapply IH; eauto.
Qed.
End A.

(** *** PxMALA accepts no proposal with a NaN entry or with log posterior NaN or
    minus infinity, and none from such a sample; whatever the operators and the
    rounding.  If rounding keeps signs and half the step size is positive, all
    entries of an accepted sample are finite. *)
Theorem C58_accepted : forall rnd G (randn laplace : nat -> G -> list R * G) rand f lmda mu tune i x delta g s',
  let o := fl_ops rnd randn laplace rand f lmda mu in
  mh_trans o tune i (x, delta, g) true s' ->
  let y := fst (fst s') in
  ~ In NaN x /\ ~ In NaN y /\
  (forall d t, o_forward o x = Ok d -> o_logpi o x d = Ok t -> fst (fst t) <> NaN /\ fst (fst t) <> PInf) /\
  (forall d t, o_forward o y = Ok d -> o_logpi o y d = Ok t -> fst (fst t) <> NaN /\ fst (fst t) <> NInf) /\
  ((forall r, 0 <= r -> rnd r = PInf \/ exists z, rnd r = Fin z /\ 0 <= z) ->
   fltb (Fin 0) (fmul rnd (Fin (1 / 2)) delta) = true -> forall v, In v y -> exists r, v = Fin r).
Proof. intros. now apply accepted_clean with (1 := H). Qed.
Print Assumptions C58_accepted.

(** *** ... so nothing PxMALA records holds a NaN, finished or stopped *)
Theorem C58_pxmala_records : forall rnd G (randn laplace : nat -> G -> list R * G) rand f lmda mu prm tune fuel start w w' n r,
  sized (w_inst w) n -> p_nsamples prm = Z.of_nat n ->
  pxmala_run (fl_ops rnd randn laplace rand f lmda mu) prm tune fuel start w = (w', r) ->
  (r = Ret tt -> rows_without_nan (w_inst w')) /\
  (r = NoFuel -> rows_without_nan (w_inst w) -> rows_without_nan (w_inst w')).
Proof.
  intros rnd G randn laplace rand f lmda mu prm tune fuel start w w' n r S N E.
  set (o := fl_ops rnd randn laplace rand f lmda mu) in *.
  assert (M : forall k m, mh_reference o prm tune start w w' k m ->
    exists l, List.length l = m /\ records o (w_inst w) (w_inst w') l /\
      Forall (fun e => ~ In NaN (e_X e) /\ e_logPi e <> NaN /\ e_logPi e <> NInf) l).
  { intros k m (x & g0 & tr & idx & l & A1 & A2 & A3 & A4 & A5 & A6 & A7 & _). exists l. split; [exact A5|]. split; [exact A7|].
    apply Forall_forall. intros e He. apply In_nth_error in He. destruct He as (j & Ej).
    destruct (Forall2_nth_r _ _ _ _ _ A6 Ej) as (kk & Ek & (B1 & B2 & acc & delta & g & B3)).
    assert (In kk idx) by (eapply nth_error_In; eauto). destruct A4 as (_ & A4). apply A4 in H. destruct H as (_ & s & Hs).
    rewrite Hs in B3. injection B3 as <- ->.
    pose proof (mh_path_steps _ _ _ _ _ A2 _ _ _ Hs) as T.
    destruct (mh_before _ tr kk) as [[xb db] gb]. destruct (accepted_clean _ _ _ _ _ _ _ _ _ _ _ _ _ T) as (_ & C1 & _ & C2 & _).
    cbn [fst] in C1, C2. split; [exact C1|]. exact (C2 _ _ B1 B2). }
  split; intros ->.
  - destruct (C03_pxmala_refines_reference _ _ _ _ _ _ o prm tune fuel start w w' n S N E) as (k & _ & R).
    destruct (M _ _ R) as (l & L & (R1 & _ & _ & _ & R5) & F). rewrite Forall_forall in F.
    destruct S as (S1 & _ & _ & _ & S5). split.
    + intros rows row Er Hr. rewrite Er in R5. destruct (i_chain (w_inst w)) as [a0|]; [|destruct R5]. cbn in S5.
      destruct (rec_in_full _ _ _ _ _ R5 ltac:(rewrite map_length; congruence) Hr) as (x & Hx & Ex).
      apply in_map_iff in Hx. destruct Hx as (e & <- & He). intros Hn. apply (proj1 (F e He)). eapply row_nan; [exact Ex|exact Hn].
    + intros vals v Er Hr. rewrite Er in R1. destruct (i_logPi (w_inst w)) as [a0|]; [|destruct R1]. cbn in S1.
      destruct (rec_in_full _ _ _ _ _ R1 ltac:(rewrite map_length; congruence) Hr) as (x & Hx & Ex).
      apply in_map_iff in Hx. destruct Hx as (e & <- & He). cbn in Ex. injection Ex as <-. exact (proj2 (F e He)).
  - intros (W1 & W2). destruct (C03_pxmala_refines_reference_stopped _ _ _ _ _ _ o prm tune fuel start w w' n S N E) as (m & _ & R).
    destruct (M _ _ R) as (l & L & (R1 & _ & _ & _ & R5) & F). rewrite Forall_forall in F. split.
    + intros rows row Er Hr. rewrite Er in R5. destruct (i_chain (w_inst w)) as [a0|] eqn:E0; [|destruct R5].
      destruct (rec_in _ _ _ _ _ R5 Hr) as [(x & Hx & Ex)|H0]; [|exact (W1 _ _ eq_refl H0)].
      apply in_map_iff in Hx. destruct Hx as (e & <- & He). intros Hn. apply (proj1 (F e He)). eapply row_nan; [exact Ex|exact Hn].
    + intros vals v Er Hr. rewrite Er in R1. destruct (i_logPi (w_inst w)) as [a0|] eqn:E0; [|destruct R1].
      destruct (rec_in _ _ _ _ _ R1 Hr) as [(x & Hx & Ex)|H0]; [|exact (W2 _ _ eq_refl H0)].
      apply in_map_iff in Hx. destruct Hx as (e & <- & He). cbn in Ex. injection Ex as <-. exact (proj2 (F e He)).
Qed.
Print Assumptions C58_pxmala_records.

(** *** A start whose log posterior is NaN or plus infinity, or with a NaN entry:
    no iteration ever accepts; the run records nothing and does not return *)
Theorem C58_stuck_start : forall rnd G (randn laplace : nat -> G -> list R * G) rand f lmda mu prm tune fuel start w w' n r,
  let o := fl_ops rnd randn laplace rand f lmda mu in
  sized (w_inst w) n -> p_nsamples prm = Z.of_nat n -> (1 <= n)%nat ->
  (forall x g0, o_init o start (w_rng w) = (Ok x, g0) ->
     In NaN x \/ exists d t, o_forward o x = Ok d /\ o_logpi o x d = Ok t /\ (fst (fst t) = NaN \/ fst (fst t) = PInf)) ->
  pxmala_run o prm tune fuel start w = (w', r) ->
  r <> Ret tt /\
  (r = NoFuel -> i_acc (w_inst w') = Some (repeat 0%Z fuel) /\ same_arrays (w_inst w) (w_inst w')).
Proof.
  intros rnd G randn laplace rand f lmda mu prm tune fuel start w w' n r o S N N1 H E.
  assert (M : forall k m, mh_reference o prm tune start w w' k m ->
    m = 0%nat /\ i_acc (w_inst w') = Some (repeat 0%Z k) /\ same_arrays (w_inst w) (w_inst w')).
  { intros k m (x & g0 & tr & idx & l & (A1 & _) & A2 & A3 & (_ & A4) & A5 & A6 & A7 & A8 & _).
    pose proof (path_all_false rnd randn laplace rand f lmda mu _ _ _ _ _ _ (H _ _ A1) A2) as F.
    assert (idx = []).
    { destruct idx as [|k0 idx]; [reflexivity|]. destruct (proj1 (A4 k0) (or_introl eq_refl)) as (_ & s & Hs).
      rewrite Forall_forall in F. destruct (F _ (nth_error_In _ _ Hs)) as (X & _). discriminate X. }
    subst idx. inversion A6; subst l. cbn in A5. split; [congruence|]. split.
    - rewrite A8. f_equal. rewrite <- A3. clear -F. induction F as [|p tr [Hp _] F IH]; [reflexivity|].
      destruct p as [a s]. cbn in Hp. subst a. cbn [map List.length repeat fst b2z]. f_equal. exact IH.
    - unfold records in A7. cbn [map] in A7.
      assert (RA : forall (A B : Type) (c : A -> res B) a b, rec_arr c [] a b -> a = b).
      { intros A B c [a|] [b|]; cbn; intros R; try contradiction; [|reflexivity].
        destruct R as (rows & F0 & _ & ->). inversion F0. reflexivity. }
      destruct A7 as (R1 & R2 & R3 & R4 & R5). repeat split; eapply RA; eassumption. }
  split.
  - intros ->. destruct (C03_pxmala_refines_reference _ _ _ _ _ _ o prm tune fuel start w w' n S N E) as (k & _ & R).
    destruct (M _ _ R) as (Z & _). lia.
  - intros ->. destruct (C03_pxmala_refines_reference_stopped _ _ _ _ _ _ o prm tune fuel start w w' n S N E) as (m & _ & R).
    destruct (M _ _ R) as (_ & Z). exact Z.
Qed.
Print Assumptions C58_stuck_start.

(** *** The acceptance test on special values.  [u] is the logarithm of a number
    in [0,1): a number or minus infinity. *)
Theorem C58_acceptance_cases : forall rnd u q' lp q lc,
  (u = NInf \/ exists r, u = Fin r) ->
  let z := fsub rnd (fadd rnd q' lp) q in
  let accept := fltb u (fsub rnd z lc) in
  (lc = NInf -> accept = true <-> z <> NaN /\ z <> NInf) /\
  (lc = PInf -> accept = false) /\
  (forall c, lc = Fin c -> z = PInf -> accept = true) /\
  (forall c, lc = Fin c -> z = NInf -> accept = false) /\
  (lc = NaN \/ z = NaN -> accept = false) /\
  (lp = PInf -> forall a b, q' = Fin a -> q = Fin b -> z = PInf) /\
  (lp = NInf -> z = NaN \/ z = NInf).
Proof.
  intros rnd u q' lp q lc Hu z accept. unfold accept.
  split; [|split; [|split; [|split; [|split; [|split]]]]].
  - intros ->. split.
    + intros A. split; intros Z; rewrite Z in A; destruct u; discriminate A.
    + intros (Z1 & Z2). destruct Hu as [->|(r & ->)]; destruct z as [y| | |]; try contradiction; reflexivity.
  - intros ->. destruct u, z; reflexivity.
  - intros c -> Z. rewrite Z. destruct Hu as [->|(r & ->)]; reflexivity.
  - intros c -> Z. rewrite Z. destruct u; reflexivity.
  - intros [->| ->]; [rewrite fsub_nan_r|rewrite fsub_nan_l]; apply fltb_nan_r.
  - intros -> a b -> ->. reflexivity.
  - intros ->. unfold z. apply low_sub_l, low_add_r. now right.
Qed.
Print Assumptions C58_acceptance_cases.

(** a draw of exactly 0 gives log(0) = minus infinity: every proposal whose ratio
    is a number or plus infinity is accepted *)
Theorem C58_zero_draw : forall rnd G (rand : G -> R * G) g g' a,
  rand g = (0, g') ->
  f_logrand rnd rand g = (NInf, g') /\ (fltb NInf a = true <-> a <> NaN /\ a <> NInf).
Proof.
  intros rnd G rand g g' a E. unfold f_logrand. rewrite E. split.
  - f_equal. cbn. destruct (total_order_T 0 0) as [[?|?]|?]; try lra. reflexivity.
  - destruct a; cbn; split; try discriminate; try (intros [? ?]; congruence); intros _; split; discriminate.
Qed.
Print Assumptions C58_zero_draw.

(** *** MYULA: a NaN stays where it is for the rest of the chain *)
Theorem C58_myula_nan_stays : forall rnd G (randn laplace : nat -> G -> list R * G) rand f lmda mu delta s tr i,
  let o := fl_ops rnd randn laplace rand f lmda mu in
  path (myula_trans o delta) s tr -> nth_error (fst (fst s)) i = Some NaN ->
  Forall (fun s' => nth_error (fst (fst s')) i = Some NaN) tr.
Proof.
  intros rnd G randn laplace rand f lmda mu delta s tr i o H. induction H as [s|s s' l T P IH]; intros N; [constructor|].
  assert (nth_error (fst (fst s')) i = Some NaN).
  { destruct s as [[x d] g], s' as [[x' d'] g']. destruct T as (gr & p & _ & _ & E & _). cbn [fst] in *.
    eapply step_nan; [exact E|]. left. exact N. }
  constructor; auto.
Qed.
Print Assumptions C58_myula_nan_stays.

(** ... and a NaN in the gradient or the prox of a sample appears in the next sample *)
Theorem C58_step_nan : forall rnd G (randn laplace : nat -> G -> list R * G) rand f lmda mu delta x d g x' d' g' i,
  let o := fl_ops rnd randn laplace rand f lmda mu in
  myula_trans o delta (x, d, g) (x', d', g') ->
  (nth_error x i = Some NaN \/ (exists p, o_proxf o x = Ok p /\ nth_error p i = Some NaN) \/
   (exists gr, o_gradg o d = Ok gr /\ nth_error gr i = Some NaN)) ->
  nth_error x' i = Some NaN.
Proof.
  intros rnd G randn laplace rand f lmda mu delta x d g x' d' g' i o (gr & p & E1 & E2 & E & _) H.
  eapply step_nan; [exact E|]. destruct H as [H|[(p' & P1 & P2)|(gr' & P1 & P2)]].
  - now left.
  - rewrite E2 in P1. injection P1 as <-. right. now left.
  - rewrite E1 in P1. injection P1 as <-. right. now right.
Qed.
Print Assumptions C58_step_nan.

(** *** a NaN prediction (or datum) gives L2 = NaN and log posterior NaN *)
Theorem C58_logpi_nan : forall rnd G (randn laplace : nat -> G -> list R * G) rand f lmda mu x preds t i,
  o_logpi (fl_ops rnd randn laplace rand f lmda mu) x preds = Ok t ->
  nth_error preds i = Some NaN \/ nth_error (fp_data f) i = Some NaN ->
  fst (fst t) = NaN /\ snd (fst t) = NaN.
Proof.
  intros rnd G randn laplace rand f lmda mu x preds t i E H. cbn in E.
  destruct (logpi_nan rnd f mu _ _ _ i E H). split; assumption.
Qed.
Print Assumptions C58_logpi_nan.

(** *** the rows a finished MYULA run records from a start with a NaN in entry [i] *)
Theorem C58_myula_records : forall rnd G (randn laplace : nat -> G -> list R * G) rand f lmda mu prm fuel x0 w w' n i rows,
  sized (w_inst w) n -> p_nsamples prm = Z.of_nat n ->
  myula_run (fl_ops rnd randn laplace rand f lmda mu) prm fuel (Some x0) w = (w', Ret tt) ->
  nth_error x0 i = Some NaN -> i_chain (w_inst w') = Some rows ->
  List.length rows = n /\ Forall (fun row => nth_error row i = Some NaN) rows.
Proof.
  intros rnd G randn laplace rand f lmda mu prm fuel x0 w w' n i rows S N E Hn Er.
  destruct (C01_myula_schedule _ _ _ _ _ _ _ prm fuel (Some x0) w w' n S N E)
    as (s & tr & l & A1 & A2 & A3 & _ & A5 & A6 & A7 & A8).
  destruct A7 as (_ & _ & _ & _ & R5). destruct S as (_ & _ & _ & _ & S5). rewrite Er in R5.
  destruct (i_chain (w_inst w)) as [a0|]; [|destruct R5]. cbn in S5.
  assert (L : nth_error (fst (fst s)) i = Some NaN /\ List.length (fst (fst s)) = fp_nparams f).
  { destruct s as [[x d] g]. destruct A1 as (A1 & _). cbn in A1. destruct (Nat.eqb (List.length x0) (fp_nparams f)) eqn:El; [|discriminate].
    injection A1 as <- _. split; [exact Hn|]. now apply Nat.eqb_eq. }
  pose proof (C58_myula_nan_stays rnd G randn laplace rand f lmda mu _ _ _ i A2 (proj1 L)) as F.
  split.
  - destruct R5 as (rr & F2 & _ & ->). apply Forall2_length in F2. rewrite map_length in F2.
    rewrite app_length, skipn_length, map_length. lia.
  - apply Forall_forall. intros row Hr.
    destruct (rec_in_full _ _ _ _ _ R5 ltac:(rewrite map_length; congruence) Hr) as (x & Hx & Ex).
    apply in_map_iff in Hx. destruct Hx as (e & <- & He). apply In_nth_error in He. destruct He as (j & Ej).
    destruct (A8 _ _ Ej) as (st & Es & Eq). rewrite Forall_forall in F. pose proof (F _ (nth_error_In _ _ Es)) as Fs. cbv beta in Fs.
    destruct st as [[xs ds] gs], e as [[xe de] te]. destruct Eq as (-> & ->). cbn [fst e_X] in *.
    cbn in Ex. unfold f_row in Ex. destruct (Nat.eqb (List.length xs) (fp_nparams f)); [injection Ex as <-; exact Fs|].
    destruct xs as [|z [|? ?]]; try discriminate. injection Ex as <-.
    destruct i as [|i]; [|destruct i; discriminate]. cbn in Fs. injection Fs as ->. destruct L as (L1 & L2).
    destruct (fp_nparams f) as [|m]; [|reflexivity]. destruct (fst (fst s)); discriminate.
Qed.
Print Assumptions C58_myula_records.

(** *** A step size that is NaN: the tuning keeps it, every proposal is rejected,
    the run does not return *)
Theorem C58_nan_step_size : forall rnd G (randn laplace : nat -> G -> list R * G) rand f lmda mu prm tune fuel start w w' n r,
  let o := fl_ops rnd randn laplace rand f lmda mu in
  sized (w_inst w) n -> p_nsamples prm = Z.of_nat n -> (1 <= n)%nat ->
  i_delta (w_inst w) = NaN ->
  pxmala_run o prm tune fuel start w = (w', r) ->
  r <> Ret tt /\ (r = NoFuel -> i_delta (w_inst w') = NaN /\ i_acc (w_inst w') = Some (repeat 0%Z fuel)).
Proof.
  intros rnd G randn laplace rand f lmda mu prm tune fuel start w w' n r o S N N1 H E.
  assert (T : forall acc i, f_tuned rnd lmda NaN acc i = NaN).
  { intros acc i. unfold f_tuned. rewrite fmul_nan_l. unfold fmin, fmax. rewrite fltb_nan_l.
    rewrite fltb_nan_r. reflexivity. }
  assert (P : forall tr i x g, mh_path o tune i (x, NaN, g) tr ->
            Forall (fun p => fst p = false /\ snd (fst (snd p)) = NaN) tr).
  { induction tr as [|[acc s'] tr IH]; intros i x g P; [constructor|].
    inversion P as [|? ? ? ? ? Tr P']; subst. destruct s' as [[x' delta'] g'].
    destruct Tr as (y & g1 & u & a & _ & A & _ & Ac & _ & D).
    assert (acc = false).
    { destruct A as (dx & gx & px & lx & dy & gy & py & ly & qxy & qyx & _ & _ & _ & _ & _ & _ & _ & _ & Q1 & Q2 & ->).
      cbn in Q2. destruct (logtrans_parts rnd _ _ _ _ _ _ _ Q2) as (? & ? & ? & _ & _ & Q). rewrite fmul_nan_r, fmul_nan_l in Q.
      rewrite Ac, Q. cbn -[fsub fadd]. rewrite fadd_nan_l, !fsub_nan_l. apply fltb_nan_r. }
    assert (delta' = NaN) by (rewrite D; destruct tune; [apply T|reflexivity]). clear Ac D P.
    subst acc delta'. constructor; [split; reflexivity|]. eapply IH; eauto. }
  assert (M : forall k m, mh_reference o prm tune start w w' k m ->
    m = 0%nat /\ i_delta (w_inst w') = NaN /\ i_acc (w_inst w') = Some (repeat 0%Z k)).
  { intros k m (x & g0 & tr & idx & l & _ & A2 & A3 & (_ & A4) & A5 & A6 & _ & A8 & _ & (xl & A9)).
    rewrite H in A2, A9. pose proof (P _ _ _ _ A2) as F.
    assert (idx = []).
    { destruct idx as [|k0 idx]; [reflexivity|]. destruct (proj1 (A4 k0) (or_introl eq_refl)) as (_ & s & Hs).
      rewrite Forall_forall in F. destruct (F _ (nth_error_In _ _ Hs)) as (X & _). discriminate X. }
    subst idx. inversion A6; subst l. cbn in A5. split; [congruence|]. split.
    - destruct (exists_last_or_nil tr) as [->|(tr' & p & ->)].
      + cbn in A9. congruence.
      + rewrite last_last in A9. rewrite Forall_forall in F. destruct (F p) as (_ & Z); [apply in_or_app; right; now left|].
        destruct p as [a s]. cbn in A9, Z. subst s. exact Z.
    - rewrite A8. f_equal. rewrite <- A3. clear -F. induction F as [|p tr [Hp _] F IH]; [reflexivity|].
      destruct p as [a s]. cbn in Hp. subst a. cbn [map List.length repeat fst b2z]. f_equal. exact IH. }
  split.
  - intros ->. destruct (C03_pxmala_refines_reference _ _ _ _ _ _ o prm tune fuel start w w' n S N E) as (k & _ & R).
    destruct (M _ _ R) as (Z & _). lia.
  - intros ->. destruct (C03_pxmala_refines_reference_stopped _ _ _ _ _ _ o prm tune fuel start w w' n S N E) as (m & _ & R).
    destruct (M _ _ R) as (_ & Z). exact Z.
Qed.
Print Assumptions C58_nan_step_size.

(** *** The tuned step size: the proposed value d if it lies between the bounds,
    else the nearer bound; NaN exactly if d is *)
Theorem C58_tuned : forall rnd lmda delta acc i,
  let lo := fmul rnd lmda (rnd (1 / 100000000)) in
  let hi := fdiv rnd lmda (Fin 2) in
  let d := fmul rnd delta (fadd rnd (Fin 1) (fdiv rnd (fsub rnd (Fin (IZR acc)) (Fin (1 / 2)))
                                                    (rnd (Rpower (IZR (i + 1)) (75 / 100))))) in
  let t := f_tuned rnd lmda delta acc i in
  lo <> NaN -> hi <> NaN -> fltb hi lo = false ->
  (t = NaN <-> d = NaN) /\
  (d <> NaN -> fltb t lo = false /\ fltb hi t = false) /\
  (fltb d lo = false -> fltb hi d = false -> t = d) /\
  (fltb d lo = true -> t = lo) /\ (fltb hi d = true -> t = hi).
Proof.
  intros rnd lmda delta acc i lo hi d t L H LH.
  assert (Et : t = fmin (fmax d lo) hi) by reflexivity. clearbody t lo hi d. subst t. unfold fmin, fmax.
  assert (TR : forall a b c, fltb a b = true -> fltb b c = true -> fltb a c = true).
  { intros [x| | |] [y| | |] [z| | |]; cbn; try discriminate; try reflexivity.
    destruct (Rlt_dec x y), (Rlt_dec y z), (Rlt_dec x z); try discriminate; try reflexivity; lra. }
  assert (TE : forall a b c, b <> NaN -> fltb a b = false -> fltb b c = false -> a <> NaN -> c <> NaN -> fltb a c = false).
  { intros [x| | |] [y| | |] [z| | |]; cbn; try discriminate; try reflexivity; try congruence.
    destruct (Rlt_dec x y), (Rlt_dec y z), (Rlt_dec x z); try discriminate; try reflexivity; lra. }
  assert (IR : forall a, fltb a a = false) by (intros [x| | |]; cbn; auto; destruct (Rlt_dec x x); [lra|reflexivity]).
  assert (AS : forall a b, fltb a b = true -> fltb b a = false).
  { intros a b X. destruct (fltb b a) eqn:Y; [|reflexivity]. pose proof (TR _ _ _ X Y) as Z. now rewrite IR in Z. }
  assert (NN : forall a b, fltb a b = true -> a <> NaN /\ b <> NaN) by (intros [x| | |] [y| | |]; cbn; try discriminate; split; discriminate).
  destruct (fltb d lo) eqn:E1.
  - rewrite LH. destruct (NN _ _ E1). rewrite IR. split; [tauto|]. split; [auto|]. split; [discriminate|]. split; [auto|].
    intros X. exfalso. pose proof (TR _ _ _ X E1). congruence.
  - destruct (fltb hi d) eqn:E2.
    + destruct (NN _ _ E2). split; [tauto|]. split; [intros _; split; [exact LH|apply IR]|]. split; [discriminate|]. split; [discriminate|auto].
    + split; [tauto|]. split; [auto|]. split; [auto|]. split; discriminate.
Qed.
Print Assumptions C58_tuned.

Lemma deltas_along {V D K P G I} (o : ops V D K P G I) tune (Q : P -> Prop) : forall tr i x (d : P) g,
  mh_path o tune i (x, d, g) tr -> Q d -> (tune = true -> Forall (fun p => Q (snd (fst (snd p)))) tr) ->
  forall k, (k < List.length tr)%nat -> Q (snd (fst (mh_before (x, d, g) tr k))).
Proof.
  intros tr i x d g H Qd Qt.
  assert (A : Forall (fun p => Q (snd (fst (snd p)))) tr).
  { destruct tune; [now apply Qt|]. clear Qt. revert i x d g H Qd.
    induction tr as [|[a s'] tr IH]; intros i x d g H Qd; [constructor|]. inversion H as [|? ? ? ? ? T P']; subst.
    destruct s' as [[x' d'] g']. destruct T as (? & ? & ? & ? & _ & _ & _ & _ & _ & ->).
    constructor; [exact Qd|]. eapply IH; eauto. }
  intros [|k] L; cbn; [exact Qd|]. rewrite Forall_forall in A. apply (A (nth k tr (true, (x, d, g)))). apply nth_In. lia.
Qed.

(** *** If rounding keeps signs and half of every step size used is positive
    (it does not underflow), every entry of the chain of a finished PxMALA run is
    a finite number, whatever the start and the operators *)
Theorem C58_pxmala_finite : forall rnd G (randn laplace : nat -> G -> list R * G) rand f lmda mu prm tune fuel start w w' n deltas rows,
  (forall r, 0 <= r -> rnd r = PInf \/ exists z, rnd r = Fin z /\ 0 <= z) ->
  sized (w_inst w) n -> p_nsamples prm = Z.of_nat n ->
  pxmala_run (fl_ops rnd randn laplace rand f lmda mu) prm tune fuel start w = (w', Ret tt) ->
  i_deltas (w_inst w') = Some deltas ->
  Forall (fun d => fltb (Fin 0) (fmul rnd (Fin (1 / 2)) d) = true) deltas ->
  i_chain (w_inst w') = Some rows ->
  Forall (Forall (fun v => exists r, v = Fin r)) rows.
Proof.
  intros rnd G randn laplace rand f lmda mu prm tune fuel start w w' n deltas rows KS S N E Ed Hd Er.
  destruct (C03_pxmala_refines_reference _ _ _ _ _ _ _ prm tune fuel start w w' n S N E) as (k & _ & R).
  destruct R as (x & g0 & tr & idx & l & A1 & A2 & A3 & (_ & A4) & A5 & A6 & (_ & _ & _ & _ & R5) & _ & A8 & _).
  rewrite A8 in Ed. injection Ed as <-. inversion Hd as [|? ? Hd0 Hd1]; subst.
  destruct S as (_ & _ & _ & _ & S5). rewrite Er in R5. destruct (i_chain (w_inst w)) as [a0|]; [|destruct R5]. cbn in S5.
  apply Forall_forall. intros row Hr.
  destruct (rec_in_full _ _ _ _ _ R5 ltac:(rewrite map_length; congruence) Hr) as (xe & Hx & Ex).
  apply in_map_iff in Hx. destruct Hx as (e & <- & He). apply In_nth_error in He. destruct He as (j & Ej).
  destruct (Forall2_nth_r _ _ _ _ _ A6 Ej) as (kk & Ek & (_ & _ & acc & delta & g & B3)).
  destruct (proj1 (A4 kk) (nth_error_In _ _ Ek)) as (_ & s & Hs). rewrite Hs in B3. injection B3 as <- ->.
  pose proof (mh_path_steps _ _ _ _ _ A2 _ _ _ Hs) as T.
  assert (HD := deltas_along _ _ (fun d => fltb (Fin 0) (fmul rnd (Fin (1 / 2)) d) = true) _ _ _ _ _ A2 Hd0
                  ltac:(intros ->; rewrite Forall_map in Hd1; exact Hd1) kk ltac:(apply nth_error_Some; congruence)).
  destruct (mh_before _ tr kk) as [[xb db] gb]. cbn [fst snd] in HD.
  destruct (accepted_clean _ _ _ _ _ _ _ _ _ _ _ _ _ T) as (_ & _ & _ & _ & C). cbn [fst] in C.
  specialize (C KS HD). apply Forall_forall. intros v Hv. apply C.
  cbn in Ex. unfold f_row in Ex. destruct (Nat.eqb (List.length (e_X e)) (fp_nparams f)); [congruence|].
  destruct (e_X e) as [|z [|? ?]]; try discriminate. injection Ex as <-. apply repeat_spec in Hv. left. auto.
Qed.
Print Assumptions C58_pxmala_finite.

(** *** Vectors of the right lengths keep them, whatever values they hold: MYULA
    returns, PxMALA raises nothing *)
Definition float_shapes (f : fl_problem) (n m : nat) : Prop :=
  fp_nparams f = n /\ List.length (fp_data f) = m /\
  List.length (fp_invcov f) = m /\
  (forall x, List.length x = n -> exists d, fp_forward f x = Ok d /\ List.length d = m) /\
  (forall d, List.length d = m -> exists v, fp_gradg f d = Ok v /\ List.length v = n) /\
  (forall x, List.length x = n -> exists v, fp_proxf f x = Ok v /\ List.length v = n) /\
  (forall x, List.length x = n -> exists p, fp_prior f x = Ok p).

Lemma float_works rnd G (randn laplace : nat -> G -> list R * G) rand f lmda mu n m start :
  (forall k g, List.length (fst (randn k g)) = k) -> (forall k g, List.length (fst (laplace k g)) = k) ->
  float_shapes f n m -> lmda <> Fin 0 ->
  (forall x, start = Some x -> List.length x = n) ->
  works_on (fl_ops rnd randn laplace rand f lmda mu) (fun x => List.length x = n) (fun d => List.length d = m) start.
Proof.
  intros LR LL (S1 & S2 & S3 & S5 & S6 & S7 & S8) NZ ST.
  assert (FS : forall c a, List.length (fscal rnd c a) = List.length a) by (intros; apply map_length).
  unfold works_on. cbn. split; [|split; [exact S5|split; [exact S6|split; [exact S7|]]]].
  { intros g. unfold f_start. destruct start as [x|].
    - rewrite (ST x eq_refl), S1, Nat.eqb_refl. exists x, g. split; [reflexivity|now apply ST].
    - specialize (LL (fp_nparams f) g). destruct (laplace (fp_nparams f) g) as [a g']. cbn in LL.
      exists (map Fin a), g'. split; [reflexivity|]. rewrite map_length. congruence. }
  split; [|split; [|split; [|split; [|split]]]].
  - intros x d Lx Ld. unfold f_logpi. destruct (fzip_ok (fsub rnd) (fp_data f) d ltac:(congruence)) as (df & -> & Ldf). cbn [rbind].
    unfold f_matvec. assert (Lm : List.length df = m) by congruence. rewrite S3, Lm, Nat.eqb_refl.
    cbn [rbind]. rewrite map_length, S3, Nat.eqb_refl. cbn [rbind]. destruct (S8 x Lx) as (p & ->). cbn [rbind]. eauto.
  - intros p x y z g Lx Ly Lz. unfold f_step. specialize (LR (fp_nparams f) g). destruct (randn (fp_nparams f) g) as [w0 g']. cbn in LR.
    assert (Q : exists r, py_fdiv rnd p lmda = Ok r).
    { unfold py_fdiv. destruct lmda as [l| | |]; eauto. destruct (Req_EM_T l 0); [exfalso; subst; auto|eauto]. }
    destruct Q as (r & ->). cbn [rbind].
    destruct (fzip_ok (fadd rnd) (fscal rnd (fsub rnd (Fin 1) r) x) (fscal rnd r y) ltac:(rewrite !FS; congruence)) as (a & -> & La). cbn [rbind].
    destruct (fzip_ok (fsub rnd) a (fscal rnd p z) ltac:(rewrite La, !FS; congruence)) as (b & -> & Lb). cbn [rbind].
    destruct (fzip_ok (fadd rnd) b (fscal rnd (fsqrt rnd (fmul rnd (Fin 2) p)) (map Fin w0)) ltac:(rewrite Lb, La, !FS, map_length; congruence)) as (c & -> & Lc).
    exists c, g'. split; [reflexivity|]. rewrite Lc, Lb, La, FS. exact Lx.
  - intros p x g Lx. eauto.
  - intros p x y z t Lx Ly Lz Lt. unfold f_logtrans.
    destruct (fzip_ok (fsub rnd) x z ltac:(congruence)) as (d & -> & Ld). cbn [rbind].
    destruct (fzip_ok (fsub rnd) (map (fun x0 => fneg (fdiv rnd x0 lmda)) d) t ltac:(rewrite map_length; congruence)) as (gl & -> & Lg). cbn [rbind].
    rewrite map_length in Lg.
    destruct (fzip_ok (fsub rnd) y x ltac:(congruence)) as (e & -> & Le). cbn [rbind].
    destruct (fzip_ok (fsub rnd) e (fscal rnd (fdiv rnd p (Fin 2)) gl) ltac:(rewrite !FS; congruence)) as (r & -> & Lr). cbn [rbind]. eauto.
  - intros x Lx. unfold f_row. rewrite Lx, S1, Nat.eqb_refl. eauto.
  - intros d Ld. unfold f_row. rewrite Ld, S2, Nat.eqb_refl. eauto.
Qed.

Theorem C58_runs_end : forall rnd G (randn laplace : nat -> G -> list R * G) rand f lmda mu n m prm tune fuel start w k,
  let o := fl_ops rnd randn laplace rand f lmda mu in
  (forall k g, List.length (fst (randn k g)) = k) -> (forall k g, List.length (fst (laplace k g)) = k) ->
  float_shapes f n m -> lmda <> Fin 0 -> (forall x, start = Some x -> List.length x = n) ->
  sized (w_inst w) k -> p_nsamples prm = Z.of_nat k -> ~ line_array_missing (w_inst w) ->
  ((total_iters (p_nburn prm) (p_ngap prm) k <= fuel)%nat -> exists w', myula_run o prm fuel start w = (w', Ret tt)) /\
  (exists w', pxmala_run o prm tune fuel start w = (w', Ret tt) \/ pxmala_run o prm tune fuel start w = (w', NoFuel)).
Proof.
  intros rnd G randn laplace rand f lmda mu n m prm tune fuel start w k o LR LL S NZ ST Z N L.
  pose proof (float_works rnd G randn laplace rand f lmda mu n m start LR LL S NZ ST) as W. split.
  - intros F. exact (proj1 (C01_terminates_on _ _ _ _ _ _ _ _ _ prm fuel start w k W Z N F L)).
  - exact (proj2 (C06_terminates_on _ _ _ _ _ _ _ _ _ prm tune start w k W Z N) fuel).
Qed.
Print Assumptions C58_runs_end.

(** *** lmda = 0: the first step divides by zero *)
Theorem C58_zero_lmda : forall rnd G (randn : nat -> G -> list R * G) f delta X p gr g,
  exists g', f_step rnd randn f (Fin 0) delta X p gr g = (Raise ZeroDivisionError, g').
Proof.
  intros. unfold f_step. destruct (randn (fp_nparams f) g) as [w0 g']. exists g'. unfold py_fdiv.
  destruct (Req_EM_T 0 0); [reflexivity|contradiction].
Qed.
Print Assumptions C58_zero_lmda.

(** *** "A finished run has numbers in its chain" is true of PxMALA and false of
    MYULA.  One parameter, identity operator, datum 1: from the start [NaN],
    MYULA returns with every row [NaN]; PxMALA never returns; from the start [0]
    no row of PxMALA is [NaN]. *)
Definition unit_float : fl_problem :=
  mkFl 1 [Fin 1] [[(0%nat, Fin 1)]] (fun x => Ok x) (fun d => fzip (fsub Fin) d [Fin 1]) (fun x => Ok (fscal Fin (Fin (1 / 2)) x))
    (fun x => Ok (fsum Fin x)).

Lemma unit_float_shapes : float_shapes unit_float 1 1.
Proof.
  unfold float_shapes, unit_float. cbn. split; [reflexivity|]. split; [reflexivity|]. split; [reflexivity|].
  split; [eauto|]. split; [|split].
  - intros d L. destruct (fzip_ok (fsub Fin) d [Fin 1] L) as (c & -> & Lc). exists c. split; [reflexivity|]. congruence.
  - intros x L. eexists. split; [reflexivity|]. rewrite <- L. apply map_length.
  - eauto.
Qed.

Lemma rpower_1_base a : Rpower 1 a = 1.
Proof. unfold Rpower. rewrite ln_1, Rmult_0_r. apply exp_0. Qed.
Definition unit_prm := Build_params 2 1 3 0 ["logposterior"; "L2"; "prior"; "chain"]%string.

Definition zeros (k : nat) (g : unit) : list R * unit := (repeat 0 k, g).
Definition unit_ops := fl_ops Fin zeros zeros (fun g : unit => (0, g)) unit_float (Fin 1) (Fin 1).

Lemma unit_start start w : (forall x, start = Some x -> List.length x = 1%nat) ->
  sized (w_inst w) 2 -> ~ line_array_missing (w_inst w) ->
  (exists w', myula_run unit_ops unit_prm 10 start w = (w', Ret tt)) /\
  (forall tune fuel, exists w', pxmala_run unit_ops unit_prm tune fuel start w = (w', Ret tt) \/
                                pxmala_run unit_ops unit_prm tune fuel start w = (w', NoFuel)).
Proof.
  intros ST Z L.
  assert (LR : forall k g, List.length (fst (zeros k g)) = k) by (intros; apply repeat_length).
  assert (NZ : Fin 1 <> Fin 0) by (intros H; injection H; lra).
  pose proof (fun tune fuel => C58_runs_end Fin unit zeros zeros (fun g => (0, g)) unit_float (Fin 1) (Fin 1) 1 1
    unit_prm tune fuel start w 2 LR LR unit_float_shapes NZ ST Z eq_refl L) as A.
  split; [|intros tune fuel; exact (proj2 (A tune fuel))].
  apply (proj1 (A false 10%nat)). vm_compute. repeat constructor.
Qed.

Lemma new_clean : exists s0, new_sampler unit_ops unit_prm (Fin (1 / 2)) = Ok s0 /\ rows_without_nan s0 /\
  sized s0 2 /\ ~ line_array_missing s0 /\ i_chain s0 <> None.
Proof.
  eexists. split; [reflexivity|]. split; [|split; [|split]].
  - split; cbn.
    + intros rows row E H. injection E as <-. repeat (destruct H as [<-|H]; [intros [X|[]]; discriminate X|]). destruct H.
    + intros vals v E H. injection E as <-. repeat (destruct H as [<-|H]; [split; discriminate|]). destruct H.
  - unfold sized. cbn. auto 10.
  - unfold line_array_missing. cbn. intros [H|[H|H]]; discriminate.
  - cbn. discriminate.
Qed.

Theorem C58_numbers_refuted : exists s0 w' rows,
  new_sampler unit_ops unit_prm (Fin (1 / 2)) = Ok s0 /\ rows_without_nan s0 /\
  myula_run unit_ops unit_prm 10 (Some [NaN]) (mkWorld s0 tt) = (w', Ret tt) /\
  i_chain (w_inst w') = Some rows /\ List.length rows = 2%nat /\ Forall (fun row => nth_error row 0 = Some NaN) rows /\
  ~ rows_without_nan (w_inst w').
Proof.
  destruct new_clean as (s0 & E0 & C0 & Z & L & NC).
  destruct (unit_start (Some [NaN]) (mkWorld s0 tt)) as ((w' & E) & _); auto.
  { intros x H. injection H as <-. reflexivity. }
  destruct (C01_myula_schedule _ _ _ _ _ _ _ unit_prm 10%nat _ (mkWorld s0 tt) _ 2%nat Z eq_refl E) as (s & tr & l & _ & _ & _ & _ & _ & _ & (_ & _ & _ & _ & R) & _).
  cbn [w_inst] in R. destruct (i_chain s0) as [a0|]; [|congruence]. destruct (i_chain (w_inst w')) as [rows|] eqn:Er; [|destruct R].
  destruct (C58_myula_records Fin unit zeros zeros _ unit_float (Fin 1) (Fin 1) unit_prm 10 [NaN] (mkWorld s0 tt) w' 2 0 rows Z eq_refl E eq_refl Er) as (Lr & Fr).
  exists s0, w', rows. split; [exact E0|]. split; [exact C0|]. split; [exact E|]. split; [exact Er|]. split; [exact Lr|]. split; [exact Fr|].
  intros (H & _). destruct rows as [|row rows]; [discriminate|]. inversion Fr; subst.
  apply (H _ row Er (or_introl eq_refl)). eapply nth_error_In. eassumption.
Qed.
Print Assumptions C58_numbers_refuted.

Example C58_case : exists s0, new_sampler unit_ops unit_prm (Fin (1 / 2)) = Ok s0 /\
  (forall tune fuel, exists w', pxmala_run unit_ops unit_prm tune fuel (Some [NaN]) (mkWorld s0 tt) = (w', NoFuel) /\
     i_acc (w_inst w') = Some (repeat 0%Z fuel)) /\
  (forall tune fuel w', pxmala_run unit_ops unit_prm tune fuel (Some [Fin 0]) (mkWorld s0 tt) = (w', Ret tt) ->
     rows_without_nan (w_inst w')) /\
  f_tuned Fin (Fin 1) (Fin (1 / 2)) 1 0 = Fin (1 / 2) /\
  f_tuned Fin (Fin 1) (Fin (1 / 2)) 0 0 = Fin (1 / 4) /\
  fltb NInf (fsub Fin (fsub Fin (fadd Fin (Fin 1) (Fin 2)) (Fin 4)) NInf) = true.
Proof.
  destruct new_clean as (s0 & E0 & C0 & Z & L & NC). exists s0. split; [exact E0|]. split; [|split; [|split; [|split]]].
  - intros tune fuel. destruct (unit_start (Some [NaN]) (mkWorld s0 tt)) as (_ & A); auto.
    { intros x H. injection H as <-. reflexivity. }
    destruct (A tune fuel) as (w' & [E|E]); exists w'; unfold unit_ops in E;
    (assert (B := C58_stuck_start Fin unit zeros zeros (fun g => (0, g)) unit_float (Fin 1) (Fin 1) unit_prm tune fuel
       (Some [NaN]) (mkWorld s0 tt) w' 2 _ Z eq_refl ltac:(repeat constructor)
       ltac:(intros x g0 H; cbn in H; injection H as <- _; left; now left) E); destruct B as (B1 & B2)).
    + contradiction.
    + split; [exact E|]. exact (proj1 (B2 eq_refl)).
  - intros tune fuel w' E.
    exact (proj1 (C58_pxmala_records Fin unit zeros zeros _ unit_float (Fin 1) (Fin 1) unit_prm tune fuel _ (mkWorld s0 tt) _ 2 _ Z eq_refl E) eq_refl).
  - unfold f_tuned, flit. cbn -[Rpower IZR]. change (IZR (0 + 1)) with 1. rewrite rpower_1_base.
    unfold fmin, fmax. cbn -[IZR]. destruct (Req_EM_T 1 0); [lra|]. destruct (Req_EM_T 2 0); [lra|]. cbn -[IZR].
    repeat (match goal with |- context [Rlt_dec ?a ?b] => destruct (Rlt_dec a b); cbn -[IZR] end); try (exfalso; lra); f_equal; lra.
  - unfold f_tuned, flit. cbn -[Rpower IZR]. change (IZR (0 + 1)) with 1. rewrite rpower_1_base.
    unfold fmin, fmax. cbn -[IZR]. destruct (Req_EM_T 1 0); [lra|]. destruct (Req_EM_T 2 0); [lra|]. cbn -[IZR].
    repeat (match goal with |- context [Rlt_dec ?a ?b] => destruct (Rlt_dec a b); cbn -[IZR] end); try (exfalso; lra); f_equal; lra.
  - reflexivity.
Qed.
