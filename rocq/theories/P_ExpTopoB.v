(** C48, continued: the operator of the Earth topography script, and comparing a
    two-dimensional image with predictions. *)
From Coq Require Import List ZArith Lia Bool Reals Lra Psatz String.
From Coquelicot Require Import Coquelicot.
From Verif Require Import PyBase PyBaseFacts CVec RSort Utils UtilsSpec UtilsProof Measure MeasSpec MeasProof Prior Forward
  FwdProof Transforms McmcSpec ExpData ExpSpec ExpProof P_Meas P_ExpTopo.
Import ListNotations.
Open Scope R_scope.
Notation length := List.length.

(** what a datum with error bar s weighs in the misfit: 1/s^2; for complex data
    the variance is given equal real and imaginary parts, s^2 (1 + i)/sqrt 2 *)
Definition topo_weight (cplx : bool) (s : R) : C :=
  if cplx then (RtoC (1 / (sqrt 2 * s ^ 2)) * (RtoC 1 - Ci))%C else RtoC (1 / s ^ 2).

Lemma topo_weight_ok : forall cplx s, s <> 0 -> (RtoC 1 / variance cplx (RtoC s) false)%C = topo_weight cplx s.
Proof.
  intros cplx s Hs. assert (S2 : sqrt 2 <> 0) by (apply Rgt_not_eq, sqrt_lt_R0; lra).
  unfold variance, topo_weight. destruct cplx; cbn [andb negb].
  - assert (N : (RtoC 1 + Ci)%C <> RtoC 0) by (intros X; apply (f_equal fst) in X; cbn in X; lra).
    assert (Q : ((RtoC 1 - Ci) * (RtoC 1 + Ci) = RtoC 2)%C) by (unfold Cmult, Cminus, Cplus, Copp, Ci, RtoC; cbn; f_equal; ring).
    assert (HR : RtoC (1 / (sqrt 2 * s ^ 2)) = (RtoC 1 / (RtoC (sqrt 2) * (RtoC s * RtoC s)))%C).
    { rewrite <- !RtoC_mult. rewrite <- RtoC_div; [f_equal; field; auto|]. apply Rmult_integral_contrapositive. split; auto; nra. }
    rewrite HR. assert (R0 : RtoC s <> RtoC 0) by (intros X; apply RtoC_inj in X; auto).
    assert (R2 : RtoC (sqrt 2) <> RtoC 0) by (intros X; apply RtoC_inj in X; auto).
    assert (SS : (RtoC (sqrt 2) * RtoC (sqrt 2))%C = RtoC 2) by (rewrite <- RtoC_mult, sqrt_sqrt by lra; reflexivity).
    transitivity (RtoC (sqrt 2) / (RtoC s * RtoC s * (RtoC 1 + Ci)))%C; [field; auto|].
    transitivity ((RtoC 1 - Ci) * (RtoC 1 + Ci) / (RtoC (sqrt 2) * (RtoC s * RtoC s) * (RtoC 1 + Ci)))%C; [|field; auto].
    rewrite Q, <- SS. field; auto.
  - rewrite <- RtoC_mult, <- RtoC_div by nra. f_equal. field; auto.
Qed.

(** B = 1.5, J_min = 2, one direction, spin 0; the predictions are the first
    pixels of the image; one error bar for all data, or one per datum *)
Theorem C48_operator : forall sl junk inv L setting v cplx errs t n,
  let bar := fun i => match errs with inl s => s | inr l => nth i l 0 end in
  let sig := match errs with inl s => SPy (RtoC s) false | inr l => SVec (map RtoC l) false end in
  length v = n -> (forall l, errs = inr l -> length l = n) -> (forall s, errs = inl s -> s <> 0) ->
  SWT_init sl junk L (3 / 2) 2 1 0 false = Ok t -> setting = "analysis"%string \/ setting = "synthesis"%string ->
  exists f, topo_operator sl junk inv L setting v cplx sig = Ok f /\
    fo_data f = mkData v cplx /\ m_rows (fo_invcov f) = n /\ m_cols (fo_invcov f) = n /\
    (forall i j, (i < n)%nat -> (j < n)%nat -> bar i <> 0 ->
       m_ent (fo_invcov f) i j = if Nat.eqb i j then topo_weight cplx (bar i) else RtoC 0) /\
    fo_setting f = setting /\ fo_transform f = Some (swt_transform t) /\
    fo_nparams f = Some (if String.eqb setting "analysis" then L * (2 * L - 1) else sw_ncoefs t)%nat /\
    exists ms, fo_measurement f = Some ms /\
      (forall X, length X = (L * (2 * L - 1))%nat -> exists Y, ms_forward ms X = Ok Y /\ length Y = n /\
         forall i, (i < n)%nat -> nth i Y (RtoC 0) = nth i X (RtoC 0)) /\
      (forall Y, length Y = n -> exists X, ms_adjoint ms Y = Ok X /\ length X = (L * (2 * L - 1))%nat /\
         forall i, (i < L * (2 * L - 1))%nat -> nth i X (RtoC 0) = nth i Y (RtoC 0)).
Proof.
  intros sl junk inv L setting v cplx errs t n bar sig Lv Le He ET HS.
  assert (K : known_setting setting = true) by (unfold known_setting; rewrite orb_true_iff, !String.eqb_eq; tauto).
  assert (PC : forall k (x : vec), length (pad_or_cut k x) = k /\ forall i, (i < k)%nat -> nth i (pad_or_cut k x) (RtoC 0) = nth i x (RtoC 0)).
  { intros k x. unfold pad_or_cut. split; [rewrite map_length, seq_length; reflexivity|]. intros i Hi.
    rewrite (nth_map_in _ _ _ _ 0%nat) by (rewrite seq_length; exact Hi). rewrite seq_nth by exact Hi. reflexivity. }
  assert (IC : exists W, build_invcov inv (mkData v cplx) sig = Ok W /\ m_rows W = n /\ m_cols W = n /\
    forall i j, (i < n)%nat -> (j < n)%nat -> bar i <> 0 -> m_ent W i j = if Nat.eqb i j then topo_weight cplx (bar i) else RtoC 0).
  { unfold sig, bar. destruct errs as [s|l]; unfold build_invcov; cbn [d_val d_complex].
    - assert (Hs := He s eq_refl). assert (ND : (negb (cplx && negb false) && Reqb (Cmod (variance cplx (RtoC s) false)) 0)%bool = false).
      { destruct cplx; [reflexivity|]. cbn [andb negb]. unfold variance. cbn [andb]. unfold Reqb.
        destruct (Req_EM_T _ 0) as [Q|_]; [|reflexivity]. apply Cmod_eq_0 in Q. rewrite <- RtoC_mult in Q. apply RtoC_inj in Q. nra. }
      rewrite ND. eexists. split; [reflexivity|]. split; [exact Lv|]. split; [exact Lv|]. intros i j Hi Hj HB.
      unfold scaled_identity. cbn [m_ent]. destruct (Nat.eqb_spec i j); [|reflexivity]. apply topo_weight_ok; auto.
    - rewrite !map_length, (Le l eq_refl), Lv, Nat.eqb_refl. eexists. split; [reflexivity|]. unfold diags. cbn [m_rows m_cols m_ent].
      rewrite !map_length, (Le l eq_refl). split; [reflexivity|]. split; [reflexivity|]. intros i j Hi Hj HB.
      destruct (Nat.eqb_spec i j) as [<-|_]; [|reflexivity].
      rewrite !map_map. rewrite (nth_map_in _ _ _ _ 0) by (rewrite (Le l eq_refl); exact Hi). apply topo_weight_ok; auto. }
  destruct IC as (W & EW & W1 & W2 & W3).
  unfold topo_operator, SWTO_init. rewrite ET. cbn [rbind]. unfold Forward_init. rewrite EW. cbn [rbind]. rewrite K.
  eexists. split; [reflexivity|]. cbn [fo_data fo_invcov fo_setting fo_transform fo_measurement fo_nparams d_val].
  split; [reflexivity|]. split; [exact W1|]. split; [exact W2|]. split; [exact W3|]. split; [reflexivity|]. split; [reflexivity|].
  split; [reflexivity|]. eexists. split; [reflexivity|]. cbn [ms_forward ms_adjoint]. rewrite Lv. split.
  - intros X LX. destruct (C29_values n (mw_size L) X) as (A & _). rewrite (A LX). eexists. split; [reflexivity|]. apply PC.
  - intros Y LY. destruct (C29_values n (mw_size L) Y) as (_ & B & _). rewrite (B LY). eexists. split; [reflexivity|]. apply PC.
Qed.
Print Assumptions C48_operator.

Lemma concat_repeat_nth : forall (v : vec) c r i j, length v = c -> (i < r)%nat -> (j < c)%nat ->
  nth (i * c + j) (List.concat (repeat v r)) (RtoC 0) = nth j v (RtoC 0).
Proof.
  intros v c r. induction r as [|r IH]; intros i j Lv Hi Hj; [lia|]. cbn [repeat List.concat]. destruct i as [|i].
  - rewrite app_nth1 by (cbn; lia). reflexivity.
  - rewrite app_nth2 by (cbn; lia). replace (S i * c + j - length v)%nat with (i * c + j)%nat by (rewrite Lv; cbn; lia). apply IH; auto; lia.
Qed.
Lemma concat_repeat_length : forall (v : vec) r, length (List.concat (repeat v r)) = (r * length v)%nat.
Proof. intros v r. induction r; [reflexivity|]. cbn [repeat List.concat]. rewrite app_length, IHr. reflexivity. Qed.
Lemma flat_map_nth : forall (g : C -> vec) k l i j, (forall z, length (g z) = k) -> (i < length l)%nat -> (j < k)%nat ->
  nth (i * k + j) (flat_map g l) (RtoC 0) = nth j (g (nth i l (RtoC 0))) (RtoC 0).
Proof.
  intros g k l. induction l as [|z l IH]; intros i j Hg Hi Hj; [cbn in Hi; lia|]. cbn [flat_map]. destruct i as [|i].
  - rewrite app_nth1 by (rewrite Hg; cbn; lia). reflexivity.
  - rewrite app_nth2 by (rewrite Hg; cbn; lia). replace (S i * k + j - length (g z))%nat with (i * k + j)%nat by (rewrite Hg; cbn; lia).
    cbn [nth]. apply IH; auto. cbn in Hi. lia.
Qed.
Lemma flat_map_len : forall (g : C -> vec) k l, (forall z, length (g z) = k) -> length (flat_map g l) = (length l * k)%nat.
Proof. intros g k l Hg. induction l; [reflexivity|]. cbn [flat_map]. rewrite app_length, Hg, IHl. reflexivity. Qed.

(** An image of r rows and c columns as data: predictions for the r data are the
    first r pixels of X, and numpy lines them up with the columns, not with the
    rows.  Only for r = c, or with a single row or column, is there a residual. *)
Theorem C48_residual : forall L r c buf X, length buf = (r * c)%nat -> length X = (L * (2 * L - 1))%nat ->
  let p := fun i => nth i X (RtoC 0) in let e := fun i => nth i buf (RtoC 0) in
  (r = c -> exists w, residual_2d L r c buf X = Ok (Arr2 r c w) /\ length w = (r * c)%nat /\
     forall i j, (i < r)%nat -> (j < c)%nat -> nth (i * c + j) w (RtoC 0) = (e (i * c + j)%nat - p j)%C) /\
  (r <> c -> r = 1%nat -> exists w, residual_2d L r c buf X = Ok (Arr2 1 c w) /\ length w = c /\
     forall j, (j < c)%nat -> nth j w (RtoC 0) = (e j - p 0%nat)%C) /\
  (r <> c -> c = 1%nat -> exists w, residual_2d L r c buf X = Ok (Arr2 r r w) /\ length w = (r * r)%nat /\
     forall i j, (i < r)%nat -> (j < r)%nat -> nth (i * r + j) w (RtoC 0) = (e i - p j)%C) /\
  (r <> c -> r <> 1%nat -> c <> 1%nat -> residual_2d L r c buf X = Raise ValueError).
Proof.
  intros L r c buf X Lb LX p e. unfold residual_2d. destruct (C29_values r (mw_size L) X) as (A & _). rewrite (A LX). cbn [rbind]. clear A.
  assert (LP : length (pad_or_cut r X) = r) by (unfold pad_or_cut; rewrite map_length, seq_length; reflexivity).
  assert (NP : forall i, (i < r)%nat -> nth i (pad_or_cut r X) (RtoC 0) = p i).
  { intros i Hi. unfold pad_or_cut. rewrite (nth_map_in _ _ _ _ 0%nat) by (rewrite seq_length; exact Hi). rewrite seq_nth by exact Hi. reflexivity. }
  set (P := pad_or_cut r X) in *. unfold np_sub_2d. rewrite LP. split; [|split; [|split]].
  - intros <-. rewrite Nat.eqb_refl. eexists. split; [reflexivity|].
    assert (LL : length buf = length (List.concat (repeat P r))) by (rewrite concat_repeat_length, LP; exact Lb).
    split; [rewrite map2_length; [exact Lb|exact LL]|]. intros i j Hi Hj.
    rewrite (nth_map2 _ _ _ _ (RtoC 0) (RtoC 0)) by (rewrite <- ?LL; nia).
    rewrite (concat_repeat_nth P r r i j LP Hi Hj), NP by exact Hj. reflexivity.
  - intros Q ->. rewrite (proj2 (Nat.eqb_neq _ _) Q). destruct P as [|x [|]]; cbn [List.length] in LP; try lia.
    specialize (NP 0%nat ltac:(lia)). cbn [nth] in NP. eexists. split; [reflexivity|]. split; [rewrite map_length; lia|].
    intros j Hj. rewrite (nth_map_in _ _ _ _ (RtoC 0)) by lia. rewrite NP. reflexivity.
  - intros Q ->. rewrite (proj2 (Nat.eqb_neq _ _) Q). 
    assert (E : (match P with [x] => Ok (Arr2 r 1 (map (fun z => z - x)%C buf)) | _ => if Nat.eqb 1 1 then
       Ok (Arr2 r r (flat_map (fun z => map (fun x => z - x)%C P) buf)) else Raise ValueError end)
      = Ok (Arr2 r r (flat_map (fun z => map (fun x => z - x)%C P) buf))).
    { destruct P as [|x [|]]; try reflexivity. cbn [List.length] in LP. lia. }
    eexists. split; [exact E|]. assert (G : forall z : C, length (map (fun x => z - x)%C P) = r) by (intros; rewrite map_length; exact LP).
    split; [rewrite (flat_map_len _ r) by exact G; rewrite Lb; lia|]. intros i j Hi Hj.
    rewrite (flat_map_nth _ r) by (auto; lia). rewrite (nth_map_in _ _ _ _ (RtoC 0)) by lia. rewrite NP by exact Hj. reflexivity.
  - intros Q Q1 Q2. rewrite (proj2 (Nat.eqb_neq _ _) Q). destruct P as [|x [|y l]].
    + rewrite (proj2 (Nat.eqb_neq _ _) Q2). reflexivity.
    + cbn [List.length] in LP. lia.
    + rewrite (proj2 (Nat.eqb_neq _ _) Q2). reflexivity.
Qed.
Print Assumptions C48_residual.

(** two by two, predictions 1 and 2 *)
Example C48_case_residual : exists w, residual_2d 2 2 2 [RtoC 10; RtoC 20; RtoC 30; RtoC 40] (map RtoC [1; 2; 3; 4; 5; 6]) = Ok (Arr2 2 2 w) /\
  nth 2 w (RtoC 0) = RtoC 29 /\ nth 3 w (RtoC 0) = RtoC 38.
Proof.
  destruct (C48_residual 2 2 2 [RtoC 10; RtoC 20; RtoC 30; RtoC 40] (map RtoC [1; 2; 3; 4; 5; 6]) eq_refl eq_refl) as (H & _).
  destruct (H eq_refl) as (w & E & _ & N). exists w. split; [exact E|].
  assert (A := N 1%nat 0%nat ltac:(lia) ltac:(lia)). assert (B := N 1%nat 1%nat ltac:(lia) ltac:(lia)). cbn in A, B. rewrite A, B.
  split; rewrite <- RtoC_minus; f_equal; lra.
Qed.
