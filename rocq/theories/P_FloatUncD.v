(** C68, continued: hard, norm and snr in floats; cases. *)
From Coq Require Import List ZArith Lia Bool Reals Lra Permutation Sorted.
From Coquelicot Require Import Coquelicot.
From Verif Require Import PyBase PyBaseFacts CVec RSort Thresh ThreshProof P_Thresh Utils UtilsProof Transforms Uncertainty UncProof P_Unc
  Ieee FloatOps FloatUnc RoundProof P_FloatOps ExactProof FloatUncProof P_FloatUnc P_FloatUncB.
Import ListNotations.
Notation length := List.length.
Open Scope R_scope.

(** ** hard *)
Definition flt (a b : float) : Prop := fle a b /\ a <> b.
Lemma fltb_true : forall a b, fltb a b = true <-> flt a b.
Proof.
  unfold flt. intros [x| | |] [y| | |]; cbn; try destruct (Rlt_dec x y); split; intros H; try discriminate; try tauto; try (split; [exact I|discriminate]).
  - split; [lra|]. intros E. injection E as E. lra.
  - destruct H as (H1 & H2). destruct H1 as [H1|H1]; [lra|]. elim H2. congruence.
Qed.
(** *** k entries to keep, k from 1 on: zero below the k-th largest absolute value,
    NaN counted as the largest; k = 0: unchanged *)
Theorem C68_hard : forall rnd X T r k s, rnd (T * INR (length X)) = Fin r -> truncation r k -> ordered (map fabs X) s ->
  ((1 <= k <= Z.of_nat (length X))%Z -> exists Y tau, f_hard rnd X T = Ok Y /\ nth_error s (length X - Z.to_nat k) = Some tau /\
     List.Forall2 (fun x y => (flt (fabs x) tau /\ y = Fin 0) \/ (~ flt (fabs x) tau /\ y = x)) X Y) /\
  (k = 0%Z -> X <> [] -> f_hard rnd X T = Ok X) /\
  ((k > Z.of_nat (length X))%Z -> f_hard rnd X T = Raise IndexError) /\
  (k = 0%Z -> X = [] -> f_hard rnd X T = Raise IndexError).
Proof.
  intros rnd X T r k s Er Tr O. unfold f_hard. rewrite Er, <- (truncation_Rtrunc _ _ Tr), (ordered_sort _ _ O).
  assert (L : length s = length X) by (rewrite <- (map_length fabs X); symmetry; apply Permutation_length, O).
  split; [|split; [|split]].
  - intros Hk. assert (E : exists tau, py_index s (- k) = Ok tau /\ nth_error s (length X - Z.to_nat k) = Some tau).
    { unfold py_index. destruct (Z.ltb_spec (- k) 0); [|lia]. destruct (Z.ltb_spec (Z.of_nat (length s) + - k) 0); [lia|].
      destruct (Z.leb_spec (Z.of_nat (length s)) (Z.of_nat (length s) + - k)); [lia|]. cbn [orb].
      replace (Z.to_nat (Z.of_nat (length s) + - k)) with (length X - Z.to_nat k)%nat by lia.
      destruct (nth_error s (length X - Z.to_nat k)) as [tau|] eqn:Et; [eauto|]. apply nth_error_None in Et. lia. }
    destruct E as (tau & -> & Et). cbn [rbind]. eexists. exists tau. split; [reflexivity|]. split; [exact Et|].
    clear. induction X as [|x X IH]; constructor; auto. destruct (fltb (fabs x) tau) eqn:F.
    + left. split; [now apply fltb_true|reflexivity].
    + right. split; [|reflexivity]. intros Q. apply fltb_true in Q. congruence.
  - intros -> HX. change (- 0)%Z with (Z.of_nat 0). rewrite (index_nth s 0 NaN) by (rewrite L; destruct X; [congruence|cbn; lia]). cbn [rbind]. f_equal.
    rewrite <- (map_id X) at 2. apply map_ext_in. intros x Hx. destruct (fltb (fabs x) (nth 0 s NaN)) eqn:F; [|reflexivity]. exfalso.
    apply fltb_true in F. destruct F as (F1 & F2).
    assert (I : In (fabs x) s) by (apply (Permutation_in _ (proj1 O)); now apply in_map).
    apply In_nth with (d := NaN) in I. destruct I as (i & Hi & Ei). assert (Q := sorted_nth (f_sort (map fabs X)) 0 i NaN (f_sort_sorted _)).
    rewrite (ordered_sort _ _ O) in Q. specialize (Q ltac:(lia)). rewrite Ei in Q. apply F2. apply before_antisym; [|exact Q].
    destruct (fabs x), (nth 0 s NaN); cbn in *; auto; contradiction.
  - intros Hk. unfold py_index. destruct (Z.ltb_spec (- k) 0); [|lia]. destruct (Z.ltb_spec (Z.of_nat (length s) + - k) 0); [reflexivity|lia].
  - intros -> ->. destruct s; [reflexivity|discriminate].
Qed.
Print Assumptions C68_hard.

(** *** NaN entries are always kept; as many as were to be kept, and nothing is
    zeroed *)
Theorem C68_hard_nan : forall rnd X T Y,
  f_hard rnd X T = Ok Y ->
  List.Forall2 (fun x y => x = NaN -> y = NaN) X Y /\
  (forall r k l, rnd (T * INR (length X)) = Fin r -> truncation r k -> (1 <= k)%Z -> Permutation X (repeat NaN (Z.to_nat k) ++ l) -> Y = X).
Proof.
  intros rnd X T Y E. split.
  - unfold f_hard in E. destruct (rnd (T * INR (length X))) as [r| | |]; try discriminate.
    destruct (py_index (f_sort (map fabs X)) (- Rtrunc r)) as [tau|]; cbn [rbind] in E; [|discriminate]. injection E as <-.
    clear. induction X as [|x X IH]; constructor; auto. intros ->. reflexivity.
  - intros r k l Er Tr Hk P. set (m := Z.to_nat k) in *. assert (LX := Permutation_length P). rewrite app_length, repeat_length in LX.
    set (s := f_sort (map fabs l) ++ repeat NaN m).
    assert (O : ordered (map fabs X) s).
    { assert (PS : Permutation (map fabs X) s).
      { rewrite P, map_app. replace (map fabs (repeat NaN m)) with (repeat NaN m) by (clear; induction m; cbn; congruence).
        unfold s. rewrite <- f_sort_perm. apply Permutation_app_comm. }
      assert (SS : Sorted before s).
      { unfold s. assert (S1 := f_sort_sorted (map fabs l)). clear - S1. induction S1 as [|a b S1 IH H]; cbn [app].
        - induction m as [|m IH]; cbn; constructor; auto. destruct m; constructor. exact I.
        - constructor; auto. destruct b as [|c b]; cbn [app]; [destruct m; constructor; destruct a; exact I|]. inversion H; constructor; auto. }
      rewrite <- (f_sort_of _ _ PS SS). apply sort_ordered. }
    destruct (C68_hard rnd X T r k s Er Tr O) as (H1 & _). destruct (H1 ltac:(lia)) as (Y' & tau & E' & Et & F2). rewrite E in E'. injection E' as <-.
    assert (tau = NaN).
    { fold m in Et. replace (length X - m)%nat with (length (f_sort (map fabs l)) + 0)%nat in Et by (rewrite f_sort_length, map_length; lia).
      unfold s in Et. rewrite nth_error_app2 in Et by lia. replace (length (f_sort (map fabs l)) + 0 - length (f_sort (map fabs l)))%nat with 0%nat in Et by lia.
      assert (Hm : (1 <= m)%nat) by (unfold m; lia). clear - Hm Et. destruct m as [|m']; [lia|]. cbn in Et. congruence. }
    subst tau. clear - F2. induction F2 as [|x y X Y [((Q & _) & _)|(_ & ->)] F2 IH]; [reflexivity|exfalso; destruct (fabs x); exact Q|congruence].
Qed.
Print Assumptions C68_hard_nan.

(** ** norm and snr *)
Lemma sum_nonneg : forall rnd F l z, rounding rnd F -> (z = NaN \/ fle (Fin 0) z) -> List.Forall (fun v => v = NaN \/ fle (Fin 0) v) l ->
  let v := fold_left (fadd rnd) l z in
  (v = NaN <-> z = NaN \/ In NaN l) /\ (v <> NaN -> fle (Fin 0) v) /\ (v <> NaN -> z = PInf \/ In PInf l -> v = PInf).
Proof.
  intros rnd F l z H. revert z. induction l as [|x l IH]; intros z Hz HL; cbv zeta in *; cbn [fold_left].
  - cbn [In]. split; [|split]; [tauto|tauto|]. intros _ [?|[]]; auto.
  - inversion HL as [|? ? Hx HL']; subst.
    assert (A : fadd rnd z x = NaN \/ fle (Fin 0) (fadd rnd z x)).
    { destruct z as [z| | |], x as [x| | |]; cbn in *; auto; try tauto. destruct Hz as [Hz|Hz], Hx as [Hx|Hx]; try discriminate. right.
      change (fle (Fin 0) (rnd (z + x))). rewrite <- (ro_fix _ _ H 0 (ro_zero _ _ H)). apply (ro_mono _ _ H). lra. }
    assert (B : fadd rnd z x = NaN <-> z = NaN \/ x = NaN).
    { destruct z as [z| | |], x as [x| | |]; cbn in *; try tauto; split; auto; try (intros [?|?]; discriminate); try (intros; discriminate); try (destruct Hz; [discriminate|contradiction]); try (destruct Hx; [discriminate|contradiction]).
      intros Q. elim (ro_num _ _ H _ Q). }
    assert (D : fadd rnd z x <> NaN -> z = PInf \/ x = PInf -> fadd rnd z x = PInf).
    { intros N [-> | ->]; [destruct x|destruct z]; cbn in *; try reflexivity; congruence. }
    destruct (IH (fadd rnd z x) A HL') as (I1 & I2 & I3). split; [|split; [exact I2|]].
    + rewrite I1, B. cbn [In]. clear. split.
      * intros [[?|?]|?]; auto.
      * intros [?|[?|?]]; auto.
    + intros N Q. apply I3; [exact N|]. assert (N2 : fadd rnd z x <> NaN) by (intros E; apply N, I1; now left). cbn [In] in Q. clear - D N2 Q. destruct Q as [Q|[Q|Q]]; auto.
Qed.
Lemma squares : forall rnd F X, rounding rnd F -> let l := map (fun p => fmul rnd (fst p) (snd p)) (combine X X) in
  List.Forall (fun v => v = NaN \/ fle (Fin 0) v) l /\ (In NaN l <-> In NaN X) /\ (In PInf X \/ In NInf X -> In PInf l).
Proof.
  intros rnd F X H l. assert (E : l = map (fun x => fmul rnd x x) X) by (unfold l; clear; induction X as [|x X IH]; cbn; congruence). rewrite E. clear l E.
  assert (Sq : forall x, 0 <= x * x) by (intros; nra).
  assert (S1 : forall x, fmul rnd x x = NaN \/ fle (Fin 0) (fmul rnd x x)).
  { intros [x| | |]; cbn [fmul]; auto; [|right; exact I|right; exact I]. right. rewrite <- (ro_fix _ _ H 0 (ro_zero _ _ H)). apply (ro_mono _ _ H). apply Sq. }
  assert (S2 : forall x, fmul rnd x x = NaN <-> x = NaN).
  { intros [x| | |]; cbn; split; intros Q; try discriminate; auto. elim (ro_num _ _ H _ Q). }
  split; [|split].
  - apply List.Forall_forall. intros v Hv. apply in_map_iff in Hv. destruct Hv as (x & <- & _). apply S1.
  - rewrite in_map_iff. split; [intros (x & E & Hx); apply (proj1 (S2 x)) in E; rewrite E in Hx; exact Hx|]. intros Hx. exists NaN. split; [reflexivity|exact Hx].
  - intros [Hx|Hx]; apply in_map_iff; eexists; (split; [|exact Hx]; reflexivity).
Qed.
(** *** the norm is NaN exactly when an entry is, never negative, infinite with an
    infinite entry, 0 for a zero array *)
Theorem C68_norm : forall rnd F X, rounding rnd F ->
  (f_norm rnd X = NaN <-> In NaN X) /\ (~ In NaN X -> fle (Fin 0) (f_norm rnd X)) /\
  (~ In NaN X -> In PInf X \/ In NInf X -> f_norm rnd X = PInf) /\
  (List.Forall (eq (Fin 0)) X -> f_norm rnd X = Fin 0).
Proof.
  intros rnd F X H. destruct (squares rnd F X H) as (Q1 & Q2 & Q3). unfold f_norm, fdot, fsum.
  assert (R00 := ro_fix _ _ H 0 (ro_zero _ _ H)).
  destruct (sum_nonneg rnd F _ (Fin 0) H ltac:(right; cbn; lra) Q1) as (S1 & S2 & S3). cbv zeta in S1, S2, S3. set (v := fold_left _ _ _) in *.
  assert (V : v = NaN <-> In NaN X). { rewrite S1, <- Q2. split; [intros [?|?]; [discriminate|auto]|auto]. }
  assert (SQ : v <> NaN -> fle (Fin 0) (fsqrt rnd v)).
  { intros N. specialize (S2 N). destruct v as [y| | |]; cbn in S2; try contradiction; cbn [fsqrt]; [|exact I]. destruct (Rlt_dec y 0); [lra|]. rewrite <- R00. apply (ro_mono _ _ H). apply sqrt_pos. }
  split; [|split; [|split]].
  - split.
    + intros E. apply V. destruct (Classical_Prop.classic (v = NaN)) as [|N]; [assumption|]. specialize (SQ N). rewrite E in SQ. contradiction.
    + intros I. apply V in I. rewrite I. reflexivity.
  - intros N. apply SQ. tauto.
  - intros N I. rewrite S3; [reflexivity|tauto|]. right. now apply Q3.
  - intros Z. assert (E : v = Fin 0).
    { unfold v. clear - Z R00. induction Z as [|x X <- Z IH]; [reflexivity|]. cbn [combine map fold_left fst snd fmul]. rewrite Rmult_0_l, R00. cbn [fadd]. rewrite Rplus_0_l, R00. exact IH. }
    rewrite E. cbn [fsqrt]. destruct (Rlt_dec 0 0); [lra|]. now rewrite sqrt_0.
Qed.
Print Assumptions C68_norm.

(** *** snr is NaN with a NaN entry, for 0/0 and for inf/inf, and only then;
    infinite for a norm 0 or an infinite norm *)
Theorem C68_snr : forall rnd F S N, rounding rnd F ->
  let a := f_norm rnd S in let b := f_norm rnd N in
  (f_snr rnd S N = NaN <-> In NaN S \/ In NaN N \/ (a = Fin 0 /\ b = Fin 0) \/ (a = PInf /\ b = PInf)) /\
  (forall r, (a = Fin r /\ 0 < r /\ b = Fin 0) \/ (a = PInf /\ b = Fin r) -> f_snr rnd S N = PInf) /\
  (forall r, (a = Fin 0 /\ b = Fin r /\ r <> 0) \/ (a = Fin r /\ b = PInf) -> f_snr rnd S N = NInf).
Proof.
  intros rnd F S N H a b. destruct (C68_norm rnd F S H) as (A1 & A2 & _). destruct (C68_norm rnd F N H) as (B1 & B2 & _). fold a in A1, A2. fold b in B1, B2.
  assert (R00 := ro_fix _ _ H 0 (ro_zero _ _ H)).
  assert (F20 : finf 20 = PInf) by (unfold finf; destruct (total_order_T 20 0) as [[?|?]|?]; auto; lra).
  assert (FP : forall r, 0 < r -> finf r = PInf) by (intros r Hr; unfold finf; destruct (total_order_T r 0) as [[?|?]|?]; auto; lra).
  assert (FZ : finf 0 = NaN) by (unfold finf; destruct (total_order_T 0 0) as [[?|?]|?]; auto; lra).
  assert (L0 : flog10 rnd (Fin 0) = NInf) by (cbn; destruct (total_order_T 0 0) as [[?|?]|?]; auto; lra).
  assert (LN : forall v, fle (Fin 0) v -> fmul rnd (Fin 20) (flog10 rnd v) <> NaN).
  { intros v Hv. destruct v as [v| | |]; cbn in Hv; try contradiction; [|cbn; rewrite F20; discriminate].
    cbn [flog10]. destruct (total_order_T v 0) as [[?|?]|?]; [lra|cbn; rewrite F20; discriminate|].
    assert (Q := ro_num _ _ H (ln v / ln 10)). destruct (rnd (ln v / ln 10)) as [z| | |]; cbn; try rewrite F20; try discriminate; [apply (ro_num _ _ H)|congruence]. }
  unfold f_snr. fold a b. split; [|split].
  - split.
    + intros E. destruct (Classical_Prop.classic (In NaN S)) as [|NS]; [auto|]. destruct (Classical_Prop.classic (In NaN N)) as [|NN]; [auto|]. right. right.
      specialize (A2 NS). specialize (B2 NN). destruct a as [r| | |], b as [y| | |]; cbn in A2, B2; try contradiction; auto.
      * left. cbn [fdiv] in E. destruct (Req_EM_T y 0) as [-> | Ny].
        -- destruct A2 as [Hr|<-]; [|auto]. rewrite (FP r Hr) in E. elim (LN PInf I E).
        -- exfalso. apply (LN (rnd (r / y))); [|exact E]. rewrite <- R00. apply (ro_mono _ _ H). unfold Rdiv. apply Rmult_le_pos; [exact A2|]. apply Rlt_le, Rinv_0_lt_compat. lra.
      * exfalso. cbn [fdiv] in E. apply (LN (Fin 0)); [cbn; lra|exact E].
      * exfalso. cbn [fdiv] in E. destruct (Rlt_dec y 0); [lra|]. apply (LN PInf I E).
    + intros [I|[I|[(-> & ->)|(-> & ->)]]].
      * apply A1 in I. rewrite I. reflexivity.
      * apply B1 in I. rewrite I. destruct a; reflexivity.
      * cbn [fdiv]. destruct (Req_EM_T 0 0); [|congruence]. rewrite FZ. reflexivity.
      * reflexivity.
  - intros r [(-> & Hr & ->)|(-> & Eb)].
    + cbn [fdiv]. destruct (Req_EM_T 0 0); [|congruence]. rewrite (FP r Hr). cbn. exact F20.
    + rewrite Eb. cbn [fdiv]. assert (0 <= r).
      { destruct (Classical_Prop.classic (In NaN N)) as [Q|Q]; [apply B1 in Q; congruence|]. specialize (B2 Q). rewrite Eb in B2. exact B2. }
      destruct (Rlt_dec r 0); [lra|]. cbn. exact F20.
  - intros r [(-> & Eb & Nr)|(Ea & ->)].
    + rewrite Eb. cbn [fdiv]. destruct (Req_EM_T r 0); [congruence|]. replace (0 / r) with 0 by (unfold Rdiv; ring). rewrite R00, L0. cbn. rewrite F20. reflexivity.
    + rewrite Ea. cbn [fdiv]. rewrite L0. cbn. rewrite F20. reflexivity.
Qed.
Print Assumptions C68_snr.

(** *** without rounding: the functions on real numbers *)
Lemma norm_fin : forall X, f_norm Fin (map Fin X) = Fin (norm (map RtoC X)).
Proof.
  intros X. unfold f_norm. rewrite fdot_fin. unfold norm, nrm2. rewrite map_map.
  assert (E : rsum (map2 Rmult X X) = rsum (map (fun x => Cmod (RtoC x) ^ 2) X)).
  { f_equal. clear. induction X as [|x X IH]; [reflexivity|]. cbn [map2 map]. rewrite IH. f_equal. rewrite Cmod_R, pow2_abs. ring. }
  rewrite E. cbn [fsqrt]. destruct (Rlt_dec _ 0) as [L|L]; [|reflexivity]. exfalso. rewrite <- E in L. clear - L.
  assert (0 <= rsum (map2 Rmult X X)); [|lra]. clear. induction X as [|x X IH]; cbn [map2 rsum fold_right]; [lra|]. unfold rsum in IH. nra.
Qed.
Lemma fabs_fin : forall X, map fabs (map Fin X) = map Fin (vabs (map RtoC X)).
Proof. intros X. unfold vabs. rewrite !map_map. apply map_ext. intros x. cbn. now rewrite Cmod_R. Qed.
Theorem C68_exact_utils : forall (X S N : list R) (T : R),
  f_norm Fin (map Fin X) = Fin (norm (map RtoC X)) /\
  (0 < norm (map RtoC S) -> 0 < norm (map RtoC N) -> f_snr Fin (map Fin S) (map Fin N) = Fin (snr (map RtoC S) (map RtoC N))) /\
  match f_hard Fin (map Fin X) T, hard (map RtoC X) T with
  | Ok Y, Ok Z => exists y, Y = map Fin y /\ Z = map RtoC y
  | Raise e, Raise e' => e = e'
  | _, _ => False
  end.
Proof.
  intros X S N T. split; [apply norm_fin|]. split.
  - intros HS HN. unfold f_snr. rewrite !norm_fin. cbn [fdiv]. destruct (Req_EM_T (norm (map RtoC N)) 0); [lra|]. cbn [flog10].
    assert (P : 0 < norm (map RtoC S) / norm (map RtoC N)) by (apply Rdiv_lt_0_compat; assumption).
    destruct (total_order_T (norm (map RtoC S) / norm (map RtoC N)) 0) as [[?|?]|?]; try lra. reflexivity.
  - unfold f_hard, hard. rewrite !map_length, fabs_fin, f_sort_fin.
    set (k := Rtrunc (T * INR (length X))). set (srt := rsort (vabs (map RtoC X))).
    assert (I : py_index (map Fin srt) (- k) = match py_index srt (- k) with Ok z => Ok (Fin z) | Raise e => Raise e end).
    { unfold py_index. rewrite map_length. destruct (_ || _)%bool; [reflexivity|]. rewrite nth_error_map. destruct (nth_error srt _); reflexivity. }
    rewrite I. destruct (py_index srt (- k)) as [v|e]; cbn [rbind]; [|reflexivity].
    assert (MA : mask_assign (map RtoC X) (map (fun a => Rltb a v) (vabs (map RtoC X))) (RtoC 0) = Ok (map RtoC (map (fun x => if Rltb (Rabs x) v then 0 else x) X))).
    { unfold mask_assign, vabs. rewrite !map_length, Nat.eqb_refl. f_equal. clear. induction X as [|x X IH]; [reflexivity|]. cbn [map map2 combine]. cbn in *. rewrite <- IH, Cmod_R. destruct (Rltb (Rabs x) v); reflexivity. }
    rewrite MA. exists (map (fun x => if Rltb (Rabs x) v then 0 else x) X). split; [|reflexivity]. rewrite !map_map. apply map_ext. intros x. cbn. unfold Rltb.
    destruct (Rlt_dec (Rabs x) v); reflexivity.
Qed.
Print Assumptions C68_exact_utils.

Ltac srt := repeat match goal with |- Sorted _ _ => constructor | |- HdRel _ _ _ => constructor end; (left; reflexivity) || (right; cbn; exact I) || (right; cbn; lra).
(** *** false: the median of three samples is the middle one.  With samples 0, 1 and
    infinity it is NaN, whatever the rounding *)
Theorem C68_median_refuted : exists a, ordered a [Fin 0; Fin 1; PInf] /\ forall rnd F, rounding rnd F -> f_quantile rnd a (Fin (1 / 2)) = Ok NaN.
Proof.
  exists [Fin 0; Fin 1; PInf]. assert (O : ordered [Fin 0; Fin 1; PInf] [Fin 0; Fin 1; PInf]).
  { split; [reflexivity|]. srt. }
  split; [exact O|]. intros rnd F H. assert (R00 := ro_fix _ _ H 0 (ro_zero _ _ H)). assert (R11 := ro_fix _ _ H 1 (ro_one _ _ H)).
  assert (P : position rnd 3 (1 / 2) 1 0).
  { split; [lia|]. exists 1. cbn [Nat.sub INR]. replace ((1 + 1) * (1 / 2)) with 1 by lra. replace (1 - 1) with 0 by lra. split; [exact R11|]. split; [lra|exact R00]. }
  destruct (C68_defined rnd [Fin 0; Fin 1; PInf] (Fin (1 / 2))) as (D & _). destruct (D ltac:(cbn; lra) ltac:(cbn; lra) ltac:(discriminate) F H) as (z & E). rewrite E.
  destruct (C68_infinite_neighbours rnd F [Fin 0; Fin 1; PInf] [Fin 0; Fin 1; PInf] (1 / 2) 1 0 z (Fin 1) PInf H ltac:(intros [?|[?|[?|[]]]]; discriminate) O ltac:(lra) P eq_refl eq_refl E) as (_ & B & _).
  destruct (B 1 eq_refl eq_refl) as (_ & B'). rewrite (B' (or_introl eq_refl)). reflexivity.
Qed.
Print Assumptions C68_median_refuted.
(** *** false: a range that is a number shows that the samples are numbers: the tails
    are cut off *)
Theorem C68_hidden_refuted : exists rows, In [PInf] rows /\ f_range_of Fin rows 1 (Fin (4 / 5)) 0 (Fin 1).
Proof.
  exists [[Fin 0]; [PInf]; [Fin 2]; [Fin 3]; [Fin 1]; [Fin 4]]. split; [cbn; auto|].
  set (rows := [[Fin 0]; [PInf]; [Fin 2]; [Fin 3]; [Fin 1]; [Fin 4]]).
  destruct (range_value Fin _ rows 1 (4 / 5) fin_rounding ltac:(discriminate) ltac:(lra)) as (q1 & q2 & E1 & E2 & H1 & H2 & E).
  injection E1 as <-. injection E2 as <-. eexists. split; [exact E|]. cbn [seq map nth_error].
  set (s := [Fin 0; Fin 1; Fin 2; Fin 3; Fin 4; PInf]).
  assert (O : ordered (f_column 0 rows) s).
  { split.
    - cbn. apply perm_skip. apply Permutation_sym. change [Fin 1; Fin 2; Fin 3; Fin 4; PInf] with (Fin 1 :: [Fin 2; Fin 3; Fin 4; PInf]).
      eapply perm_trans; [apply perm_skip; apply Permutation_sym, (Permutation_middle [Fin 2; Fin 3; Fin 4] [] PInf)|].
      eapply perm_trans; [apply perm_swap|]. apply perm_skip. cbn.
      eapply perm_trans; [apply perm_swap|]. apply perm_skip. apply perm_swap.
    - srt. }
  assert (P1 : position Fin 6 (4 / 5 / 2) 2 0). { split; [lia|]. exists 2. cbn. split; [f_equal; lra|]. split; [lra|f_equal; lra]. }
  assert (P2 : position Fin 6 (1 - 4 / 5 / 2) 3 0). { split; [lia|]. exists 3. cbn. split; [f_equal; lra|]. split; [lra|f_equal; lra]. }
  rewrite (position_value Fin (f_column 0 rows) (4 / 5 / 2) s 2 0 ltac:(lra) O P1), (position_value Fin (f_column 0 rows) (1 - 4 / 5 / 2) s 3 0 ltac:(lra) O P2).
  cbn [length f_column map rows nth Nat.sub f_is_nan s]. unfold f_lerp, fsub. cbn [fleb fneg fadd fmul]. destruct (Rle_dec (1 / 2) 0); [lra|]. cbn [fleb fneg fadd fmul]. do 2 f_equal. lra.
Qed.
Print Assumptions C68_hidden_refuted.

(** ** cases *)
Example C68_case_nan : f_quantile Fin [Fin 1; NaN; Fin 3] (Fin (1 / 2)) = Ok NaN.
Proof.
  destruct (C68_defined Fin [Fin 1; NaN; Fin 3] (Fin (1 / 2))) as (D & _).
  destruct (D ltac:(cbn; lra) ltac:(cbn; lra) ltac:(discriminate) _ fin_rounding) as (z & E). rewrite E, (C68_nan Fin [Fin 1; NaN; Fin 3] _ z (or_intror (or_introl eq_refl)) E). reflexivity.
Qed.
Example C68_case_hard : f_hard Fin [Fin 5; NaN; Fin (-1); Fin 2] (1 / 2) = Ok [Fin 5; NaN; Fin 0; Fin 0].
Proof.
  assert (O : ordered (map fabs [Fin 5; NaN; Fin (-1); Fin 2]) [Fin 1; Fin 2; Fin 5; NaN]).
  { split.
    - cbn. rewrite (Rabs_right 5), (Rabs_left (-1)), (Rabs_right 2) by lra. replace (- -1) with 1 by lra.
      eapply perm_trans; [apply Permutation_sym, (Permutation_middle [Fin 5; NaN] [Fin 2] (Fin 1))|]. apply perm_skip. cbn.
      eapply perm_trans; [apply Permutation_sym, (Permutation_middle [Fin 5; NaN] [] (Fin 2))|]. reflexivity.
    - srt. }
  destruct (C68_hard Fin [Fin 5; NaN; Fin (-1); Fin 2] (1 / 2) 2 2 _ ltac:(cbn; f_equal; lra) ltac:(split; intros; lra) O) as (A & _).
  destruct (A ltac:(cbn; lia)) as (Y & tau & E & Et & F2). cbn in Et. injection Et as <-. rewrite E. f_equal.
  inversion F2 as [|? y1 ? Y1 H1 G1]; subst. inversion G1 as [|? y2 ? Y2 H2 G2]; subst. inversion G2 as [|? y3 ? Y3 H3 G3]; subst. inversion G3 as [|? y4 ? Y4 H4 G4]; subst. inversion G4; subst.
  unfold flt in *. cbn [fabs] in *. rewrite (Rabs_right 5) in H1 by lra. rewrite (Rabs_left (-1)) in H3 by lra. rewrite (Rabs_right 2) in H4 by lra. cbn [fle] in *.
  f_equal; [|f_equal; [|f_equal; [|f_equal]]].
  - destruct H1 as [((Q1 & Q2) & _)|(_ & ->)]; [elim Q2|]; reflexivity.
  - destruct H2 as [((Q1 & Q2) & _)|(_ & ->)]; [contradiction|reflexivity].
  - destruct H3 as [(_ & ->)|(Q & _)]; [reflexivity|]. elim Q. split; [lra|]. intros T. injection T as T. lra.
  - destruct H4 as [(_ & ->)|(Q & _)]; [reflexivity|]. elim Q. split; [lra|]. intros T. injection T as T. lra.
Qed.
Example C68_case_snr : f_snr Fin [Fin 3; Fin 4] [Fin 0; Fin 0] = PInf /\ f_snr Fin [Fin 0] [Fin 0] = NaN /\ f_snr Fin [PInf] [Fin 1] = PInf.
Proof.
  assert (Z2 : f_norm Fin [Fin 0; Fin 0] = Fin 0) by (apply (C68_norm Fin _ _ fin_rounding); repeat constructor).
  assert (Z1 : f_norm Fin [Fin 0] = Fin 0) by (apply (C68_norm Fin _ _ fin_rounding); repeat constructor).
  split; [|split].
  - apply (proj1 (proj2 (C68_snr Fin _ [Fin 3; Fin 4] [Fin 0; Fin 0] fin_rounding)) 5). left. split; [|split; [lra|exact Z2]].
    unfold f_norm, fdot, fsum. cbn. destruct (Rlt_dec (0 + 3 * 3 + 4 * 4) 0); [lra|]. f_equal. replace (0 + 3 * 3 + 4 * 4) with (5 * 5) by ring. apply sqrt_square. lra.
  - apply (C68_snr Fin _ [Fin 0] [Fin 0] fin_rounding). auto.
  - apply (proj1 (proj2 (C68_snr Fin _ [PInf] [Fin 1] fin_rounding)) 1). right. split.
    + apply (C68_norm Fin _ [PInf] fin_rounding); cbn; auto. intros [?|[]]. discriminate.
    + unfold f_norm, fdot, fsum. cbn. destruct (Rlt_dec (0 + 1 * 1) 0); [lra|]. f_equal. replace (0 + 1 * 1) with (1 * 1) by ring. apply sqrt_square. lra.
Qed.
