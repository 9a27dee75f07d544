(** C52: the plotting scripts. *)
From Coq Require Import List ZArith Lia Bool Reals Lra String DecimalString.
From Coquelicot Require Import Coquelicot.
From Verif Require Import PyBase PyBaseFacts CVec RSort Utils UtilsProof Prior PriorProof Measure MeasProof Mcmc Uncertainty UncProof Plotting P_Unc P_Plot P_Mcmc ExpPlot ExpPlotSpec.
Import ListNotations.
Open Scope R_scope.
Notation length := List.length.

(** ** Running a script *)
Lemma sbind_ok : forall {A B} (m : script A) (k : A -> script B) o o' (b : B), sbind m k o = (o', Ok b) ->
  exists a o1, m o = (o1, Ok a) /\ k a o1 = (o', Ok b).
Proof. intros A B m k o o' b E. unfold sbind in E. destruct (m o) as [o1 [a|e]]; [eauto|discriminate]. Qed.
Lemma slift_ok : forall {A} (r : res A) o o' a, slift r o = (o', Ok a) -> r = Ok a /\ o' = o.
Proof. intros A r o o' a E. unfold slift in E. injection E as -> ->. auto. Qed.
Lemma emit_ok : forall x o o' u, emit x o = (o', Ok u) -> o' = (o ++ [x])%list.
Proof. intros x o o' u E. unfold emit in E. injection E as <- _. auto. Qed.
Lemma sret_ok : forall {A} (a : A) o o' b, sret a o = (o', Ok b) -> o' = o /\ b = a.
Proof. intros A a o o' b E. injection E as <- <-. auto. Qed.
Lemma sbind_slift : forall {A B} (r : res A) (k : A -> script B) o, sbind (slift r) k o = match r with Ok a => k a o | Raise e => (o, Raise e) end.
Proof. intros. unfold sbind, slift. destruct r; reflexivity. Qed.
Lemma sbind_emit : forall {B} x (k : unit -> script B) o, sbind (emit x) k o = k tt (o ++ [x])%list.
Proof. reflexivity. Qed.
Lemma sbind_sret : forall {A B} (a : A) (k : A -> script B) o, sbind (sret a) k o = k a o.
Proof. reflexivity. Qed.
Lemma sbind_assoc : forall {A B D} (m : script A) (k : A -> script B) (h : B -> script D) o,
  sbind (sbind m k) h o = sbind m (fun a => sbind (k a) h) o.
Proof. intros. unfold sbind. destruct (m o) as [o1 [a|e]]; reflexivity. Qed.

(** ** The MAP sample *)
Lemma first_largest_unique : forall l k k', first_largest l k -> first_largest l k' -> k = k'.
Proof.
  intros l k k' (H1 & H2 & H3) (H1' & H2' & H3'). destruct (Nat.lt_trichotomy k k') as [H|[H|H]]; [|exact H|].
  - specialize (H3' k H). specialize (H2 k' H1'). lra.
  - specialize (H3 k' H). specialize (H2' k H1). lra.
Qed.
Lemma filter_first : forall p n s, match filter p (seq s n) with
  | [] => forall i, (s <= i < s + n)%nat -> p i = false
  | k :: _ => (s <= k < s + n)%nat /\ p k = true /\ forall i, (s <= i < k)%nat -> p i = false end.
Proof.
  induction n as [|n IH]; intros s; cbn [seq filter]; [lia|]. specialize (IH (S s)). destruct (p s) eqn:E.
  - split; [lia|]. split; [exact E|]. lia.
  - destruct (filter p (seq (S s) n)) as [|k q].
    + intros i Hi. destruct (Nat.eq_dec i s) as [->|]; [exact E|]. apply IH. lia.
    + destruct IH as (A & B & D). split; [lia|]. split; [exact B|]. intros i Hi.
      destruct (Nat.eq_dec i s) as [->|]; [exact E|]. apply D. lia.
Qed.
Lemma map_index_first : forall x l, let lp := x :: l in let m := fold_left (fun m v => if Rltb m v then v else m) l x in
  exists k idx, filter (fun i => Reqb (nth i lp 0) m) (seq 0 (length lp)) = k :: idx /\ first_largest lp k /\ (forall i, In i (k :: idx) -> (i < length lp)%nat).
Proof.
  intros x l lp m. destruct (fold_rmax l x) as (I & H). fold lp in I, H. fold m in I, H.
  assert (F := filter_first (fun i => Reqb (nth i lp 0) m) (length lp) 0).
  assert (Q : forall i, In i (filter (fun i => Reqb (nth i lp 0) m) (seq 0 (length lp))) -> (i < length lp)%nat).
  { intros i Hi. apply filter_In in Hi. destruct Hi as (Hi & _). apply in_seq in Hi. lia. }
  apply In_nth with (d := 0) in I. destruct I as (j & Hj & Ej).
  destruct (filter (fun i => Reqb (nth i lp 0) m) (seq 0 (length lp))) as [|k idx].
  - exfalso. specialize (F j ltac:(lia)). rewrite Ej in F. assert (T : Reqb m m = true) by (apply Reqb_true; reflexivity). congruence.
  - exists k, idx. split; [reflexivity|]. split; [|exact Q]. destruct F as (A & B & D). apply Reqb_true in B. split; [lia|]. split.
    + intros i Hi. rewrite B. apply H. apply nth_In. exact Hi.
    + intros i Hi. rewrite B. specialize (D i ltac:(lia)). assert (L := H (nth i lp 0) ltac:(apply nth_In; lia)).
      destruct (Req_dec (nth i lp 0) m) as [E|E]; [apply Reqb_true in E; congruence|lra].
Qed.
Lemma py_index_nat : forall {A} (l : list A) i, py_index l (Z.of_nat i) = match nth_error l i with Some a => Ok a | None => Raise IndexError end.
Proof.
  intros A l i. unfold py_index. destruct (Z.ltb_spec (Z.of_nat i) 0); [lia|]. destruct (Z.ltb_spec (Z.of_nat i) 0); [lia|]. cbn [orb].
  destruct (Z.leb_spec (Z.of_nat (length l)) (Z.of_nat i)) as [H1|H1].
  - destruct (nth_error l i) eqn:E; [|reflexivity]. assert (i < length l)%nat by (apply nth_error_Some; congruence). lia.
  - rewrite Nat2Z.id. reflexivity.
Qed.

(** the MAP sample is the first of those with the largest log posterior; all
    samples count, also those that --burn leaves out *)
Theorem C52_map_sample : forall lp ch,
  (forall X, map_sample lp ch = Ok X -> exists k, first_largest lp k /\ nth_error ch k = Some X) /\
  (forall k X, first_largest lp k -> nth_error ch k = Some X -> (length lp <= length ch)%nat -> map_sample lp ch = Ok X) /\
  (lp = [] -> map_sample lp ch = Raise ValueError).
Proof.
  intros lp ch. split; [|split]; [| |intros ->; reflexivity].
  - intros X E. destruct lp as [|x l]; [discriminate|]. unfold map_sample in E.
    destruct (map_index_first x l) as (k & idx & Ei & F & _). rewrite Ei in E. cbn [map rseq] in E. rewrite py_index_nat in E.
    destruct (nth_error ch k) as [y|] eqn:Ey; cbn [rbind] in E; [|discriminate].
    destruct (rseq (map (fun i => py_index ch (Z.of_nat i)) idx)) as [ys|]; cbn [rbind] in E; [|discriminate].
    change 0%Z with (Z.of_nat 0) in E. rewrite py_index_nat in E. cbn [nth_error] in E. apply Ok_inj in E. subst y. eauto.
  - intros k X F Ex Hl. destruct lp as [|x l]; [destruct F as (F & _); cbn in F; lia|]. unfold map_sample.
    destruct (map_index_first x l) as (k' & idx & Ei & F' & Hi). rewrite Ei. rewrite (first_largest_unique _ _ _ F' F) in *.
    assert (G : rseq (map (fun i => py_index ch (Z.of_nat i)) (k :: idx)) = Ok (map (fun i => nth i ch []) (k :: idx))).
    { apply rseq_map_Ok. intros i Ii. rewrite py_index_nat. specialize (Hi i Ii). rewrite (nth_error_nth' ch []) by lia. reflexivity. }
    rewrite G. cbn [rbind map]. change 0%Z with (Z.of_nat 0). rewrite py_index_nat. cbn [nth_error]. f_equal. apply nth_error_nth. exact Ex.
Qed.
Print Assumptions C52_map_sample.

(** ** The samples as images *)
Lemma upd_length : forall {A} (l : list A) i a, length (upd l i a) = length l.
Proof. induction l as [|x l IH]; intros [|i] a; cbn; auto. Qed.
Lemma Forall2_len : forall {A B} (P : A -> B -> Prop) l l', Forall2 P l l' -> length l = length l'.
Proof. induction 1; cbn; auto. Qed.
Lemma In_firstn : forall {A} n (l : list A) x, In x (firstn n l) -> In x l.
Proof. intros A n l x H. rewrite <- (firstn_skipn n l). apply in_or_app. auto. Qed.
Lemma In_skipn : forall {A} n (l : list A) x, In x (skipn n l) -> In x l.
Proof. intros A n l x H. rewrite <- (firstn_skipn n l). apply in_or_app. auto. Qed.
Lemma fill_pix_ok : forall setting inv npix keep samples i rows rows', fill_pix setting inv npix keep i samples rows = Ok rows' -> (i <= length rows)%nat ->
  (i + length samples <= length rows)%nat /\
  exists mid, rows' = (firstn i rows ++ mid ++ skipn (i + length samples) rows)%list /\ images_of setting inv npix keep samples mid.
Proof.
  induction samples as [|s samples IH]; intros i rows rows' E Hi; cbn [fill_pix] in E.
  - apply Ok_inj in E. subst. cbn [length]. split; [lia|]. exists []. rewrite Nat.add_0_r. cbn [app]. rewrite firstn_skipn. split; [reflexivity|constructor].
  - destruct (if String.eqb setting "synthesis" then inv s else Ok s) as [v|] eqn:Ev; cbn [rbind] in E; [|discriminate].
    destruct (Nat.ltb_spec i (length rows)) as [Hl|Hl]; [|discriminate].
    destruct (store_row npix keep v) as [r|] eqn:Er; cbn [rbind] in E; [|discriminate].
    apply IH in E; [|rewrite upd_length; lia]. rewrite upd_length in E. destruct E as (L1 & mid & -> & F). cbn [length]. split; [lia|].
    exists (r :: mid). split.
    + replace (i + S (length samples))%nat with (S i + length samples)%nat by lia.
      assert (E1 : firstn (S i) (upd rows i r) = (firstn i rows ++ [r])%list).
      { clear - Hl. revert i Hl. induction rows as [|y rows IH]; intros i Hl; [cbn in Hl; lia|]. destruct i as [|i]; cbn; [reflexivity|].
        f_equal. apply IH. cbn in Hl. lia. }
      assert (E2 : skipn (S i + length samples) (upd rows i r) = skipn (S i + length samples) rows).
      { clear. generalize (length samples). revert i. induction rows as [|y rows IH]; intros i n; [destruct i; reflexivity|]. destruct i as [|i]; cbn; [reflexivity|]. apply (IH i n). }
      rewrite E1, E2, <- app_assoc. reflexivity.
    + constructor; [|exact F]. exists v. split.
      * destruct (String.eqb_spec setting "synthesis") as [->|NE]; [left; auto|right]. apply Ok_inj in Ev. auto.
      * apply store_row_assigned. exact Er.
Qed.
Lemma fill_pix_exists : forall setting inv npix keep samples i rows, (i + length samples <= length rows)%nat ->
  (forall s, In s samples -> exists v, image_of setting inv s v /\ length v = npix) ->
  exists rows', fill_pix setting inv npix keep i samples rows = Ok rows'.
Proof.
  induction samples as [|s samples IH]; intros i rows Hi H; cbn [fill_pix]; [eauto|]. cbn [length] in Hi.
  destruct (H s (or_introl eq_refl)) as (v & Hv & Lv).
  assert (E : (if String.eqb setting "synthesis" then inv s else Ok s) = Ok v).
  { destruct Hv as [(-> & E)|(NE & ->)]; [exact E|]. destruct (String.eqb_spec setting "synthesis"); [contradiction|reflexivity]. }
  rewrite E. cbn [rbind]. destruct (Nat.ltb_spec i (length rows)); [|lia]. unfold store_row at 1. rewrite Lv, Nat.eqb_refl. cbn [rbind].
  apply IH; [rewrite upd_length; lia|]. intros s' I. apply H. right. exact I.
Qed.
Lemma slice_from : forall {A} (l : list A) k, (0 <= k <= Z.of_nat (length l))%Z -> py_slice l (Some k) None = skipn (Z.to_nat k) l.
Proof.
  intros A l k H. unfold py_slice, slice_bound. destruct (Z.ltb_spec k 0); [lia|]. rewrite ?Z.min_l by lia.
  apply firstn_all2. rewrite skipn_length. lia.
Qed.
Lemma slice_from_nonneg : forall {A} (l : list A) k, (0 <= k)%Z -> py_slice l (Some k) None = skipn (Z.to_nat k) l.
Proof.
  intros A l k H. destruct (Z_le_gt_dec k (Z.of_nat (length l))) as [H1|H1]; [apply slice_from; lia|].
  rewrite skipn_all2 by lia. unfold py_slice. set (b := slice_bound _ k). assert (b = Z.of_nat (length l)).
  { unfold b, slice_bound. destruct (Z.ltb_spec k 0); lia. } rewrite H0, Z.sub_diag. reflexivity.
Qed.
Lemma slice_from_neg : forall {A} (l : list A) m, (0 < m)%Z -> py_slice l (Some (- m)%Z) None = skipn (length l - Z.to_nat m) l.
Proof.
  intros A l m H. unfold py_slice. set (b := slice_bound _ _). assert (Eb : b = Z.max 0 (Z.of_nat (length l) - m)).
  { unfold b, slice_bound. destruct (Z.ltb_spec (- m) 0); lia. }
  rewrite Eb. replace (Z.to_nat (Z.max 0 (Z.of_nat (length l) - m))) with (length l - Z.to_nat m)%nat by lia.
  apply firstn_all2. rewrite skipn_length. lia.
Qed.

(** With 0 <= burn <= nsamples the rows are the images of exactly the samples
    from the burn-th on; with a larger burn the array cannot be made.  A negative
    burn takes the last -burn samples and leaves rows of zeros behind them. *)
Theorem C52_chain_pix : forall (cplx : bool) setting inv L N burn ch,
  let npix := (L * (2 * L - 1))%nat in let keep := if cplx then (fun z : C => z) else real_part in
  let r := chain_pix cplx setting inv L N burn ch in
  (forall rows, r = Ok rows -> (burn <= N)%Z /\ length rows = Z.to_nat (N - burn) /\
     ((0 <= burn)%Z -> N = Z.of_nat (length ch) -> images_of setting inv npix keep (skipn (Z.to_nat burn) ch) rows) /\
     ((burn < 0)%Z -> N = Z.of_nat (length ch) -> exists front : list vec, images_of setting inv npix keep (skipn (length ch - Z.to_nat (- burn)) ch) front /\
        rows = (front ++ repeat (repeat (RtoC 0) npix) (length rows - length front))%list /\ (length front < length rows \/ ch = [])%nat)) /\
  ((N < burn)%Z -> r = Raise ValueError) /\
  ((forall s, In s ch -> exists v, image_of setting inv s v /\ length v = npix) -> N = Z.of_nat (length ch) -> (burn <= N)%Z -> exists rows, r = Ok rows).
Proof.
  intros cplx setting inv L N burn ch npix keep r. unfold r, chain_pix.
  assert (K : forall cast rows, fill_pix setting inv npix (if cplx then (fun z : C => z) else to_float) 0 cast rows = fill_pix setting inv npix keep 0 cast rows).
  { intros. unfold keep. destruct cplx; reflexivity. }
  fold npix. rewrite K. split; [|split].
  - intros rows E. destruct (Z.ltb_spec (N - burn) 0) as [H|H]; [discriminate|]. apply fill_pix_ok in E; [|lia].
    rewrite repeat_length in E. destruct E as (Hl & mid & -> & F). cbn [firstn app Nat.add] in *.
    assert (Lm := Forall2_len _ _ _ F). split; [lia|]. split.
    { rewrite app_length, skipn_length, repeat_length. rewrite <- Lm. lia. }
    split; intros Hb HN.
    + rewrite slice_from in Hl, F, Lm |- * by lia. rewrite skipn_length in *. rewrite (skipn_all2 (repeat _ _)) by (rewrite repeat_length; lia).
      rewrite app_nil_r. exact F.
    + replace burn with (- (- burn))%Z in Hl, F, Lm |- * by lia. rewrite slice_from_neg in Hl, F, Lm |- * by lia.
      exists mid. split; [replace (- - burn)%Z with burn by lia; exact F|]. set (k := length (skipn _ ch)) in *.
      assert (Es : forall n m, skipn m (repeat (vzero npix) n) = repeat (repeat (RtoC 0) npix) (n - m)).
      { clear. induction n as [|n IH]; intros m; [destruct m; reflexivity|]. destruct m as [|m]; [reflexivity|]. apply IH. }
      rewrite Es. rewrite !app_length, !repeat_length. split.
      * f_equal. f_equal. lia.
      * destruct ch as [|c0 ch0]; [right; reflexivity|left]. assert (k <= length (c0 :: ch0))%nat by (unfold k; rewrite skipn_length; lia). lia.
  - intros H. destruct (Z.ltb_spec (N - burn) 0); [reflexivity|lia].
  - intros H HN Hb. destruct (Z.ltb_spec (N - burn) 0); [lia|]. apply fill_pix_exists.
    + rewrite repeat_length. destruct (Z_le_gt_dec 0 burn).
      * rewrite slice_from by lia. rewrite skipn_length. lia.
      * replace burn with (- (- burn))%Z by lia. rewrite slice_from_neg by lia. rewrite skipn_length. lia.
    + intros s I. apply H. unfold py_slice in I. apply In_firstn in I. eapply In_skipn. exact I.
Qed.
Print Assumptions C52_chain_pix.

(** a negative burn biases the mean towards zero: of the two samples 1 and 3,
    burn = -1 averages 3, 0 and 0 *)
Theorem C52_negative_burn_refuted : exists ch rows, chain_pix false "analysis" Ok 1 2 (-1) ch = Ok rows /\
  pix_mean 1 rows = [RtoC 1] /\ ~ exists k, average_of 1 (skipn k ch) (pix_mean 1 rows).
Proof.
  exists [[RtoC 1]; [RtoC 3]], [[RtoC 3]; [RtoC 0]; [RtoC 0]].
  assert (E : pix_mean 1 [[RtoC 3]; [RtoC 0]; [RtoC 0]] = [RtoC 1]).
  { unfold pix_mean. cbn [seq map length]. f_equal. unfold csum. cbn [fold_right map nth].
    rewrite <- !RtoC_plus. rewrite <- RtoC_div by (apply not_0_INR; lia). f_equal. simpl INR. field. }
  split; [reflexivity|]. split; [exact E|]. rewrite E. intros (k & _ & H). specialize (H 0%nat ltac:(lia)). destruct H as (H & _).
  assert (forall x, 1 <> (0 + 0) * x) by (intros; lra).
  destruct k as [|[|k]].
  - cbn in H. lra.
  - cbn in H. lra.
  - replace (skipn (S (S k)) [[RtoC 1]; [RtoC 3]]) with (@nil vec) in H by (destruct k; reflexivity). cbn in H. lra.
Qed.
Print Assumptions C52_negative_burn_refuted.

(** ** Mean, credible range, colour limits *)
Lemma csum_parts : forall l, fst (csum l) = rsum (map fst l) /\ snd (csum l) = rsum (map snd l).
Proof. induction l as [|z l (A & B)]; [split; reflexivity|]. unfold csum, rsum in *. cbn [fold_right map fst snd Cplus]. rewrite A, B. auto. Qed.
Lemma Cdiv_real : forall (z : C) r, r <> 0 -> fst (z / RtoC r)%C = fst z / r /\ snd (z / RtoC r)%C = snd z / r.
Proof. intros [x y] r H. unfold Cdiv, Cmult, Cinv, RtoC. cbn [fst snd]. split; field; exact H. Qed.
Theorem C52_mean : forall npix rows, rows <> [] -> average_of npix rows (pix_mean npix rows).
Proof.
  intros npix rows NE. unfold pix_mean. split; [rewrite map_length, seq_length; reflexivity|]. intros p Hp.
  rewrite (nth_map_in _ _ _ _ 0%nat) by (rewrite seq_length; exact Hp). rewrite seq_nth by exact Hp. cbn [Nat.add].
  assert (N : INR (length rows) <> 0) by (apply not_0_INR; destruct rows; [congruence|discriminate]).
  destruct (Cdiv_real (csum (map (fun r => nth p r (RtoC 0)) rows)) _ N) as (-> & ->).
  destruct (csum_parts (map (fun r => nth p r (RtoC 0)) rows)) as (-> & ->). rewrite !map_map. split; reflexivity.
Qed.
Print Assumptions C52_mean.

Lemma ranges_of_cir : forall npix rows alpha ci, credible_interval_range (mkChain (map (map fst) rows) npix) alpha = Ok ci ->
  rows <> [] -> 0 <= alpha <= 2 -> ranges_of npix rows alpha ci.
Proof.
  intros npix rows alpha ci E NE Ha. destruct (C37_defined (mkChain (map (map fst) rows) npix) alpha) as (D & _).
  destruct D as (r & Er & Lr); [destruct rows; [congruence|discriminate]|exact Ha|]. rewrite E in Er. apply Ok_inj in Er. subst r. cbn [ch_cols] in Lr.
  split; [exact Lr|]. intros p Hp. exists ci. split; [exact E|]. apply nth_error_nth'. rewrite Lr. exact Hp.
Qed.

(** the colour bar ends at the largest magnitude *)
Theorem C52_cbar : forall d c, (forall z, In z d -> snd z = 0) -> cbar_end d = Ok c -> exists r, c = RtoC r /\ largest_magnitude d r.
Proof.
  intros d c Hr E. unfold cbar_end in E. destruct (np_min d) as [mn|] eqn:En; cbn [rbind] in E; [|discriminate].
  destruct (np_max d) as [mx|] eqn:Ex; cbn [rbind] in E; [|discriminate]. apply Ok_inj in E.
  apply np_min_spec in En. apply np_max_spec in Ex. destruct En as (In1 & Hn), Ex as (In2 & Hx).
  assert (Q := Hn mx In2). assert (B : forall z, In z d -> Cmod z <= Rmax (Cmod mn) (fst mx)).
  { intros z Iz. specialize (Hn z Iz). specialize (Hx z Iz). rewrite (Cmod_real z), (Cmod_real mn) by auto.
    destruct (Rle_dec 0 (fst z)); [rewrite (Rabs_right (fst z)) by lra; eapply Rle_trans; [|apply Rmax_r]; lra|].
    rewrite (Rabs_left (fst z)), (Rabs_left (fst mn)) by lra. eapply Rle_trans; [|apply Rmax_l]. lra. }
  destruct (clex_ltb (RtoC (Cmod mn)) mx) eqn:El.
  - assert (L1 := clex_ltb_fst _ _ El). cbn [RtoC fst] in L1. exists (fst mx). split; [rewrite <- E; apply real_eq; auto|]. split.
    + intros z Iz. specialize (B z Iz). rewrite Rmax_right in B by lra. exact B.
    + exists mx. split; [exact In2|]. rewrite Cmod_real by auto. apply Rabs_right. assert (P := Cmod_ge_0 mn). lra.
  - assert (L1 := clex_ltb_fst_false _ _ El). cbn [RtoC fst] in L1. exists (Cmod mn). split; [auto|]. split; [|eauto].
    intros z Iz. specialize (B z Iz). rewrite Rmax_left in B by lra. exact B.
Qed.
Print Assumptions C52_cbar.
Lemma cap100_value : forall r, cap100 (RtoC r) = RtoC (Rmin r 100).
Proof.
  intros r. unfold cap100, clex_ltb. cbn [RtoC fst snd]. destruct (Rltb_spec 100 r); [rewrite Rmin_right by lra; reflexivity|].
  rewrite Rmin_left by lra. destruct (Rltb_spec r 100); [reflexivity|]. destruct (Rltb_spec 0 0); [lra|reflexivity].
Qed.
Lemma map_sub_difference : forall truth L v d, map_sub truth L v = Ok d -> full_shape truth L /\ difference (cm_buf truth) v d.
Proof.
  intros truth L v d E. unfold map_sub in E. destruct (Nat.eqb_spec (cm_rows truth) L) as [H1|H1]; [|discriminate].
  destruct (Nat.eqb_spec (cm_cols truth) (2 * L - 1)) as [H2|H2]; [|discriminate]. cbn [andb] in E. apply Ok_inj in E. subst d. split; [split; auto|].
  generalize (cm_buf truth). clear. intros t. revert v. induction t as [|x t IH]; intros [|y v]; cbn [map2 length Nat.min]; try (split; [reflexivity|cbn; lia]).
  destruct (IH v) as (A & B). split; [cbn; rewrite A; reflexivity|]. intros [|p] Hp; [reflexivity|]. cbn [nth]. apply B. cbn in Hp. lia.
Qed.
Lemma difference_real : forall t v d, difference t v d -> (forall z, In z t -> snd z = 0) -> (forall z, In z v -> snd z = 0) -> forall z, In z d -> snd z = 0.
Proof.
  intros t v d (A & B) Ht Hv z I. apply In_nth with (d := RtoC 0) in I. destruct I as (p & Hp & <-). rewrite B by exact Hp.
  assert (P1 := Ht (nth p t (RtoC 0)) ltac:(apply nth_In; lia)). assert (P2 := Hv (nth p v (RtoC 0)) ltac:(apply nth_In; lia)).
  cbn [Cminus Cplus Copp snd]. unfold Cminus, Cplus, Copp. cbn [snd]. lra.
Qed.
Lemma estimates_ok : forall (cplx : bool) setting inv fwd burn f X M rows, map_sample (rs_logpi f) (rs_chain f) = Ok X ->
  MAP_of setting inv fwd (rs_L f) X = Ok M -> chain_pix cplx setting inv (rs_L f) (rs_nsamples f) burn (rs_chain f) = Ok rows ->
  estimates (if cplx then fun z => z else real_part) setting inv fwd burn f (fst M) (snd M) rows.
Proof.
  intros cplx setting inv fwd burn f X M rows EX EM ER. destruct (C52_map_sample (rs_logpi f) (rs_chain f)) as (S1 & _). destruct (S1 X EX) as (k & F & Ek).
  destruct (C52_chain_pix cplx setting inv (rs_L f) (rs_nsamples f) burn (rs_chain f)) as (P1 & _). destruct (P1 rows ER) as (R1 & R2 & R3 & _).
  split; [|split; [exact R1|split; [exact R2|exact R3]]]. exists k, X. unfold MAP_of in EM.
  destruct (String.eqb_spec setting "synthesis") as [Es|Es].
  - destruct (inv X) as [m|] eqn:Em; cbn [rbind fst snd] in EM; [|discriminate]. unfold as_map in EM.
    destruct (Nat.eqb_spec (length m) (rs_L f * (2 * rs_L f - 1))) as [Lm|Lm]; cbn [rbind] in EM; [|discriminate]. apply Ok_inj in EM. subst M.
    exists m. split; [exact F|]. split; [exact Ek|]. split; [left; auto|]. split; [exact Lm|]. split; [reflexivity|left; auto].
  - destruct (fwd X) as [w|] eqn:Ew; cbn [rbind fst snd] in EM; [|discriminate]. unfold as_map in EM.
    destruct (Nat.eqb_spec (length X) (rs_L f * (2 * rs_L f - 1))) as [Lm|Lm]; cbn [rbind] in EM; [|discriminate]. apply Ok_inj in EM. subst M.
    exists X. split; [exact F|]. split; [exact Ek|]. split; [right; auto|]. split; [exact Lm|]. split; [reflexivity|right; auto].
Qed.
Lemma estimates_real : forall keep setting inv fwd burn f MAP wv rows, estimates keep setting inv fwd burn f MAP wv rows -> forall z, In z MAP -> snd z = 0.
Proof.
  intros keep setting inv fwd burn f MAP wv rows ((k & X & m & _ & _ & _ & _ & -> & _) & _) z I. apply in_map_iff in I. destruct I as (y & <- & _). reflexivity.
Qed.
Lemma fill_pix_real : forall setting inv npix samples i rows rows', fill_pix setting inv npix to_float i samples rows = Ok rows' ->
  (forall r z, In r rows -> In z r -> snd z = 0) -> forall r z, In r rows' -> In z r -> snd z = 0.
Proof.
  induction samples as [|s samples IH]; intros i rows rows' E H; cbn [fill_pix] in E.
  - apply Ok_inj in E. subst. exact H.
  - destruct (if String.eqb setting "synthesis" then inv s else Ok s) as [v|]; cbn [rbind] in E; [|discriminate].
    destruct (Nat.ltb i (length rows)); [|discriminate]. destruct (store_row npix to_float v) as [r0|] eqn:Er; cbn [rbind] in E; [|discriminate].
    eapply IH; [exact E|]. intros r z Ir Iz.
    assert (G : In r rows \/ r = r0).
    { clear - Ir. revert i Ir. induction rows as [|y rows IH]; intros i Ir; [destruct i; contradiction|]. destruct i as [|i]; cbn in Ir.
      - destruct Ir as [<-|Ir]; [auto|left; right; auto].
      - destruct Ir as [<-|Ir]; [left; left; auto|]. destruct (IH i Ir) as [G|G]; [left; right; exact G|auto]. }
    destruct G as [G| ->]; [apply (H r z G Iz)|]. unfold store_row in Er. destruct (Nat.eqb (length v) npix).
    + apply Ok_inj in Er. subst r0. apply in_map_iff in Iz. destruct Iz as (y & <- & _). reflexivity.
    + destruct v as [|y [|? ?]]; try discriminate. apply Ok_inj in Er. subst r0. apply repeat_spec in Iz. subst z. reflexivity.
Qed.
Lemma chain_pix_real : forall setting inv L N burn ch rows, chain_pix false setting inv L N burn ch = Ok rows -> forall r z, In r rows -> In z r -> snd z = 0.
Proof.
  intros setting inv L N burn ch rows E. unfold chain_pix in E. destruct (Z.ltb _ 0); [discriminate|]. eapply fill_pix_real; [exact E|].
  intros r z Ir Iz. apply repeat_spec in Ir. subst r. unfold vzero in Iz. apply repeat_spec in Iz. subst z. reflexivity.
Qed.
Lemma mean_real : forall npix rows m, average_of npix rows m -> (forall r z, In r rows -> In z r -> snd z = 0) -> forall z, In z m -> snd z = 0.
Proof.
  intros npix rows m (A & B) H z I. apply In_nth with (d := RtoC 0) in I. destruct I as (p & Hp & <-). destruct (B p ltac:(lia)) as (_ & ->).
  assert (E : rsum (map (fun r => snd (nth p r (RtoC 0))) rows) = 0).
  { clear - H. induction rows as [|r rows IH]; [reflexivity|]. unfold rsum in *. cbn [map fold_right]. rewrite IH by (intros; eapply H; [right|]; eauto).
    destruct (Nat.lt_ge_cases p (length r)).
    - rewrite (H r (nth p r (RtoC 0))) by (try (left; reflexivity); apply nth_In; exact H0). lra.
    - rewrite nth_overflow by exact H0. cbn. lra. }
  rewrite E. unfold Rdiv. lra.
Qed.

Ltac lstep E x H := rewrite sbind_slift in E;
  match type of E with match ?r with _ => _ end = _ => destruct r as [x|] eqn:H; [|discriminate E] end; cbv beta in E.
Ltac estep E := rewrite sbind_emit in E; cbv beta in E.
Ltac dstep E x H := unfold draw in E at 1; rewrite sbind_assoc in E; lstep E x H; estep E.
Lemma drawn_intro : forall rf ri L v m p, plot_map rf ri (mkCMap L (2 * L - 1) v) m = Ok p -> drawn rf ri L v m (fst p).
Proof. intros rf ri L v m [d after] E. exists after. exact E. Qed.

(** ** The topography script *)

(** what a complete run leaves behind *)
Theorem C52_topo : forall rf ri typed inv fwd truth noise a f outs, (forall z, In z (cm_buf truth) -> snd z = 0) ->
  topo_plot rf ri typed inv fwd truth noise a f [] = (outs, Ok tt) ->
  pa_npy a = false /\ topo_report rf ri typed inv fwd truth noise a f outs.
Proof.
  intros rf ri typed inv fwd truth noise a f outs Ht E. unfold topo_plot in E. cbv zeta in E. unfold topo_report. cbv zeta.
  set (L := rs_L f) in *. set (setting := match rs_setting f with Some s => s | None => typed end) in *. set (npix := (L * (2 * L - 1))%nat) in *.
  lstep E evo Hevo. estep E. lstep E dt Hdt. estep E. lstep E X HX. lstep E M HM. dstep E dM HdM.
  lstep E diff Hdiff. lstep E c Hc. dstep E dd Hdd. estep E. lstep E rows Hrows. lstep E ci Hci. dstep E dci Hdci.
  set (mean := pix_mean npix rows) in *. dstep E dmean Hdmean. lstep E diff_mean Hdm. lstep E cm Hcm. dstep E ddm Hddm.
  lstep E t Htr.
  assert (Es := estimates_ok false setting inv fwd (pa_burn a) f X M rows HX HM Hrows). cbv iota in Es.
  assert (NE : rows <> []).
  { intros ->. unfold credible_interval_range, np_quantiles in Hci. cbn [map ch_rows] in Hci. destruct (_ && _)%bool; discriminate. }
  assert (Av := C52_mean npix rows NE). fold mean in Av.
  apply map_sub_difference in Hdiff. destruct Hdiff as (Sh & Hdiff). apply map_sub_difference in Hdm. destruct Hdm as (_ & Hdm).
  assert (Rd := difference_real _ _ _ Hdiff Ht (estimates_real _ _ _ _ _ _ _ _ _ Es)).
  assert (Rm := difference_real _ _ _ Hdm Ht (mean_real _ _ _ Av (chain_pix_real _ _ _ _ _ _ _ Hrows))).
  destruct (C52_cbar _ _ Rd Hc) as (c' & -> & Lc). destruct (C52_cbar _ _ Rm Hcm) as (cm' & -> & Lcm).
  assert (Ea : forall r, around0 (RtoC r) = symmetric r) by (intros r; unfold around0, symmetric; rewrite RtoC_opp; reflexivity).
  rewrite Ea in Hdd, Hddm.
  assert (Rc : ranges_of npix rows (1 / 20) ci).
  { apply ranges_of_cir; [|exact NE|lra]. replace (1 / 20) with (5 / 100) by field. exact Hci. }
  assert (Sdt : drawn rf ri L (cm_buf truth) auto_limits (fst dt)).
  { destruct Sh as (S1 & S2). destruct truth as [tr tc tb]. cbn [cm_rows cm_cols cm_buf] in *. subst tr tc. apply drawn_intro. exact Hdt. }
  assert (Tail : forall o (b : bool), (run _ <- emit (OPrint "Mean SNR" (Some (snr (cm_buf truth) diff_mean)));
      run _ <- emit (OPrint "MAP SNR" (Some (snr (cm_buf truth) diff))); (if b then slift (Raise TypeError) else sret tt)) o = (outs, Ok tt) ->
      b = false /\ outs = (o ++ [prints "Mean SNR" (snr (cm_buf truth) diff_mean); prints "MAP SNR" (snr (cm_buf truth) diff)])%list).
  { intros o b T. estep T. estep T. destruct b; [discriminate|]. apply sret_ok in T. destruct T as (-> & _). rewrite <- app_assoc. auto. }
  assert (Main : exists extra, pa_npy a = false /\
    (forall r, (noise = NNum r \/ noise = NArr [r]) -> r <> 0 -> L = 1%nat /\
       let n := [RtoC (r / 1000)] in exists dn, drawn rf ri L n (mkArgs None None false false None) dn /\
       extra = [OMap (file_name a "noise" "png") false dn; prints "Input SNR" (snr (cm_buf truth) n)]) /\
    ((noise = NoNoise \/ noise = NNum 0 \/ noise = NArr [] \/ noise = NArr [0]) -> extra = []) /\
    outs = ([OEvolution (file_name a "evolution" "png") evo; OMap (file_name a "truth" "png") false (fst dt); OMap (file_name a "MAP" "png") false (fst dM);
            OMap (file_name a "diff" "png") false (fst dd); OSample (file_name a "MAP_wvlt" "png") (map Re (snd M), map Im (snd M));
            OMap (file_name a "ci_map" "png") false (fst dci); OMap (file_name a "mean" "png") false (fst dmean); OMap (file_name a "diff_mean" "png") false (fst ddm)] ++
           extra ++ [prints "Mean SNR" (snr (cm_buf truth) diff_mean); prints "MAP SNR" (snr (cm_buf truth) diff)])%list).
  { destruct t.
    - rewrite sbind_assoc in E. lstep E n Hn. rewrite sbind_assoc in E. lstep E dn Hdn. rewrite sbind_assoc in E. estep E. estep E.
      apply Tail in E. destruct E as (En & Eo). unfold as_map in Hn.
      destruct (Nat.eqb_spec (length (map (fun r => RtoC (r / 1000)) (noise_elems noise))) (L * (2 * L - 1))) as [Ln|Ln]; [|discriminate].
      apply Ok_inj in Hn. exists [OMap (file_name a "noise" "png") false (fst dn); prints "Input SNR" (snr (cm_buf truth) n)]. split; [exact En|]. split; [|split; [|rewrite Eo; cbn [app]; reflexivity]].
      + intros r Hr Hr0. assert (Ee : noise_elems noise = [r]) by (destruct Hr as [-> | ->]; reflexivity). rewrite Ee in Hn, Ln. cbn [map length] in Hn, Ln.
        split; [destruct L as [|[|L']]; cbn in Ln; lia|]. cbv zeta. exists (fst dn). split; [|rewrite <- Hn; reflexivity].
        apply drawn_intro. rewrite <- Hn in Hdn. exact Hdn.
      + intros Hz. exfalso. assert (Z0 : Reqb 0 0 = true) by (apply Reqb_true; reflexivity).
        destruct Hz as [-> |[-> |[-> | ->]]]; cbn [truthy] in Htr; rewrite ?Z0 in Htr; discriminate.
    - rewrite sbind_sret in E. apply Tail in E. destruct E as (En & Eo). exists []. split; [exact En|].
      split; [|split; [reflexivity|rewrite Eo; cbn [app]; reflexivity]].
      intros r Hr Hr0. exfalso. assert (T : truthy noise = Ok (negb (Reqb r 0))) by (destruct Hr as [-> | ->]; reflexivity).
      rewrite T in Htr. destruct (Reqb r 0) eqn:B; [apply Reqb_true in B; contradiction|discriminate]. }
  destruct Main as (extra & En & N1 & N2 & Eo). split; [exact En|].
  exists evo, (fst M), (snd M), rows, ci, mean, diff, diff_mean, c', cm', (fst dt), (fst dM), (fst dd), (fst dci), (fst dmean), (fst ddm), extra.
  split; [reflexivity|]. split; [exact Es|]. split; [exact Sh|]. split; [exact NE|]. split; [exact Rc|]. split; [exact Av|].
  split; [exact Hdiff|]. split; [exact Hdm|]. split; [exact Lc|]. split; [exact Lcm|]. split; [exact Sdt|].
  split; [apply drawn_intro; exact HdM|]. split; [apply drawn_intro; exact Hdd|]. split; [apply drawn_intro; exact Hdci|].
  split; [apply drawn_intro; exact Hdmean|]. split; [apply drawn_intro; exact Hddm|]. split; [exact N1|]. split; [exact N2|exact Eo].
Qed.
Print Assumptions C52_topo.

Lemma plot_map_plain : forall rf ri f m, (ma_oversample m = true -> cm_rows f <= 256)%nat -> ma_centre0 m = false -> ma_mask m = None ->
  exists p, plot_map rf ri f m = Ok p.
Proof.
  intros rf ri f m HL Hc Hm. unfold plot_map. rewrite Hc, Hm. destruct (ma_oversample m); [|cbn [rbind]; eauto].
  unfold oversample. destruct (Z.ltb_spec (Z.of_nat 256 ^ 2 - Z.of_nat (cm_rows f) ^ 2) 0) as [H|H]; [specialize (HL eq_refl); nia|]. cbn [rbind]. eauto.
Qed.
Lemma cbar_end_exists : forall d, d <> [] -> exists c, cbar_end d = Ok c.
Proof. intros [|x d] H; [congruence|]. unfold cbar_end. cbn [np_min np_max rbind]. eauto. Qed.
Lemma map_sub_ok : forall truth L v, full_shape truth L -> map_sub truth L v = Ok (map2 Cminus (cm_buf truth) v).
Proof. intros truth L v (H1 & H2). unfold map_sub. rewrite H1, H2, !Nat.eqb_refl. reflexivity. Qed.
Lemma MAP_of_exists : forall setting inv fwd L X m, image_of setting inv X m -> length m = (L * (2 * L - 1))%nat ->
  (setting <> "synthesis"%string -> exists w, fwd X = Ok w) -> exists wv, MAP_of setting inv fwd L X = Ok (real_of m, wv).
Proof.
  intros setting inv fwd L X m Hi Lm Hw. unfold MAP_of, as_map. destruct (String.eqb_spec setting "synthesis") as [Es|Es].
  - destruct Hi as [(_ & E)|(N & _)]; [|contradiction]. rewrite E. cbn [rbind fst snd]. rewrite Lm, Nat.eqb_refl. cbn [rbind]. eauto.
  - destruct Hi as [(N & _)|(_ & ->)]; [contradiction|]. destruct (Hw Es) as (w & ->). cbn [rbind fst snd]. rewrite Lm, Nat.eqb_refl. cbn [rbind]. eauto.
Qed.
Lemma real_of_length : forall v, length (real_of v) = length v.
Proof. intros. apply map_length. Qed.
Lemma pix_mean_length : forall n rows, length (pix_mean n rows) = n.
Proof. intros. unfold pix_mean. rewrite map_length, seq_length. reflexivity. Qed.
Lemma first_largest_exists : forall l, l <> [] -> exists k, first_largest l k.
Proof. intros [|x l] H; [congruence|]. destruct (map_index_first x l) as (k & idx & _ & F & _). eauto. Qed.
Lemma np_min_first_in : forall x l, exists m, np_min (x :: l) = Ok m. Proof. intros. cbn. eauto. Qed.

(** what a results file must satisfy *)
Definition readable (setting : string) (inv fwd : vec -> res vec) (burn : Z) (f : results) : Prop :=
  (1 <= rs_L f)%nat /\ rs_logpi f <> [] /\ (length (rs_logpi f) <= length (rs_chain f))%nat /\ rs_nsamples f = Z.of_nat (length (rs_chain f)) /\
  (0 <= burn < rs_nsamples f)%Z /\
  forall s, In s (rs_chain f) -> (exists v, image_of setting inv s v /\ length v = (rs_L f * (2 * rs_L f - 1))%nat) /\
    (setting <> "synthesis"%string -> exists w, fwd s = Ok w).
Lemma readable_pieces : forall (cplx : bool) setting inv fwd burn f, readable setting inv fwd burn f ->
  exists evo X m wv rows, plot_evolution (rs_logpi f) = Ok evo /\ map_sample (rs_logpi f) (rs_chain f) = Ok X /\ length m = (rs_L f * (2 * rs_L f - 1))%nat /\
    MAP_of setting inv fwd (rs_L f) X = Ok (real_of m, wv) /\
    chain_pix cplx setting inv (rs_L f) (rs_nsamples f) burn (rs_chain f) = Ok rows /\ rows <> [] /\ In X (rs_chain f).
Proof.
  intros cplx setting inv fwd burn f (H1 & H2 & H3 & H4 & H5 & H6).
  destruct (C47_map_index (rs_logpi f)) as (P & _). destruct (P H2) as (idx & Hevo & _).
  destruct (first_largest_exists _ H2) as (k & Fk). assert (Hk : (k < length (rs_chain f))%nat) by (destruct Fk; lia).
  assert (EX := nth_error_nth' (rs_chain f) [] Hk). set (X := nth k (rs_chain f) []) in *.
  destruct (C52_map_sample (rs_logpi f) (rs_chain f)) as (_ & S2 & _). assert (HX := S2 k X Fk EX H3).
  assert (IX : In X (rs_chain f)) by (eapply nth_error_In; exact EX).
  destruct (H6 X IX) as ((m & Hm & Lm) & Hw). destruct (MAP_of_exists _ inv fwd _ X m Hm Lm Hw) as (wv & HM).
  destruct (C52_chain_pix cplx setting inv (rs_L f) (rs_nsamples f) burn (rs_chain f)) as (P1 & _ & P3).
  destruct P3 as (rows & Hrows); [intros s I; apply (H6 s I)|exact H4|lia|].
  destruct (P1 rows Hrows) as (_ & Lr & _). exists (map Ropp (rs_logpi f), idx), X, m, wv, rows.
  repeat (split; [eassumption|]). split; [|exact IX]. intros ->. cbn in Lr. lia.
Qed.
Ltac fwd_lift H := rewrite sbind_slift; rewrite H; cbv beta iota.
Ltac fwd_draw H p := unfold draw at 1; rewrite sbind_assoc; rewrite sbind_slift;
  match goal with |- context [plot_map ?rf ?ri ?g ?m] => destruct (plot_map_plain rf ri g m) as (p & H); [cbn [cm_rows]; auto|reflexivity|reflexivity|rewrite H; cbv beta iota] end;
  rewrite sbind_emit.

(** the last lines of the script, from the noise on *)
Definition topo_tail (rf ri : nat -> vec -> vec) (truth : cmap) (noise : noise_attr) (a : plot_args) (L : nat) (diff diff_mean : vec) : script unit :=
  run t <- slift (truthy noise);
  run _ <- (if t then
              run n <- slift (as_map L (map (fun r => RtoC (r / 1000)) (noise_elems noise)));
              run d <- slift (plot_map rf ri (mkCMap L (2 * L - 1) n) (mkArgs None None false false None));
              run _ <- emit (OMap (out_path a "noise" "png") false (fst d));
              emit (OPrint "Input SNR" (Some (snr (cm_buf truth) n)))
            else sret tt);
  run _ <- emit (OPrint "Mean SNR" (Some (snr (cm_buf truth) diff_mean)));
  run _ <- emit (OPrint "MAP SNR" (Some (snr (cm_buf truth) diff)));
  if pa_npy a then slift (Raise TypeError) else sret tt.
Lemma topo_prefix : forall rf ri typed inv fwd truth noise a f,
  let setting := match rs_setting f with Some s => s | None => typed end in
  readable setting inv fwd (pa_burn a) f -> (rs_L f <= 256)%nat -> full_shape truth (rs_L f) -> length (cm_buf truth) = (rs_L f * (2 * rs_L f - 1))%nat ->
  exists o diff diff_mean, length o = 8%nat /\ topo_plot rf ri typed inv fwd truth noise a f [] = topo_tail rf ri truth noise a (rs_L f) diff diff_mean o.
Proof.
  intros rf ri typed inv fwd truth noise a f setting RD HL Sh Lt.
  destruct (readable_pieces false _ _ _ _ _ RD) as (evo & X & m & wv & rows & Hevo & HX & Lm & HM & Hrows & NE & _).
  unfold topo_plot. cbv zeta. fold setting. fwd_lift Hevo. rewrite sbind_emit.
  rewrite sbind_slift. destruct (plot_map_plain rf ri truth dflt) as (dt & Hdt); [destruct Sh as (-> & _); auto|reflexivity|reflexivity|]. rewrite Hdt. cbv beta iota. rewrite sbind_emit.
  fwd_lift HX. fwd_lift HM. fwd_draw HdM dM. rewrite sbind_slift, map_sub_ok by exact Sh. cbv beta iota. cbn [fst].
  assert (NZ : forall v, length v = (rs_L f * (2 * rs_L f - 1))%nat -> map2 Cminus (cm_buf truth) v <> []).
  { destruct RD as (H1 & _). intros v Lv E. apply (f_equal (@length C)) in E. rewrite map2_length in E by congruence. cbn in E. rewrite Lt in E. nia. }
  destruct (cbar_end_exists (map2 Cminus (cm_buf truth) (real_of m))) as (c & Hc); [apply NZ; rewrite real_of_length; exact Lm|].
  fwd_lift Hc. fwd_draw Hdd dd. rewrite sbind_emit. fwd_lift Hrows.
  destruct (C37_defined (mkChain (map (map fst) rows) (rs_L f * (2 * rs_L f - 1))) (5 / 100)) as (D & _).
  destruct D as (ci & Hci & _); [cbn [ch_rows]; destruct rows; [congruence|discriminate]|lra|]. fwd_lift Hci.
  fwd_draw Hdci dci. fwd_draw Hdmean dmean. rewrite sbind_slift, map_sub_ok by exact Sh. cbv beta iota.
  destruct (cbar_end_exists (map2 Cminus (cm_buf truth) (pix_mean (rs_L f * (2 * rs_L f - 1)) rows))) as (c2 & Hc2); [apply NZ; apply pix_mean_length|].
  fwd_lift Hc2. fwd_draw Hddm ddm. eexists. eexists. eexists. split; [|reflexivity]. reflexivity.
Qed.

(** A readable file with band limit at most 256 and no noise array is processed
    to the end.  With a noise array of at least two entries, as the main script
    saves it, the script stops with a ValueError before printing anything; with
    --save_npy it stops with a TypeError before saving anything. *)
Theorem C52_topo_completes : forall rf ri typed inv fwd truth noise a f,
  let setting := match rs_setting f with Some s => s | None => typed end in
  let whole := topo_plot rf ri typed inv fwd truth noise a f [] in
  readable setting inv fwd (pa_burn a) f -> (rs_L f <= 256)%nat -> full_shape truth (rs_L f) -> length (cm_buf truth) = (rs_L f * (2 * rs_L f - 1))%nat ->
  let silent := noise = NoNoise \/ noise = NNum 0 \/ noise = NArr [] \/ noise = NArr [0] in
  (silent -> pa_npy a = false -> exists outs, whole = (outs, Ok tt)) /\
  (silent -> pa_npy a = true -> exists outs, whole = (outs, Raise TypeError) /\ length outs = 10%nat) /\
  (forall l, noise = NArr l -> (2 <= length l)%nat -> exists outs, whole = (outs, Raise ValueError) /\ length outs = 8%nat).
Proof.
  intros rf ri typed inv fwd truth noise a f setting rn RD HL Sh Lt silent.
  destruct (topo_prefix rf ri typed inv fwd truth noise a f RD HL Sh Lt) as (o & d & dm & Lo & E). unfold rn. rewrite E. clear rn E.
  assert (T : silent -> truthy noise = Ok false).
  { assert (Z0 : Reqb 0 0 = true) by (apply Reqb_true; reflexivity). intros [-> |[-> |[-> | ->]]]; cbn [truthy]; rewrite ?Z0; reflexivity. }
  split; [|split].
  - intros H Hn. apply T in H. unfold topo_tail. fwd_lift H. rewrite sbind_sret, !sbind_emit, Hn. eexists. reflexivity.
  - intros H Hn. apply T in H. unfold topo_tail. fwd_lift H. rewrite sbind_sret, !sbind_emit, Hn. eexists. split; [reflexivity|].
    rewrite !app_length, Lo. reflexivity.
  - intros l -> Hl. unfold topo_tail. rewrite sbind_slift. destruct l as [|x [|y l]]; cbn in Hl; try lia. cbn [truthy]. eexists. split; [reflexivity|exact Lo].
Qed.
Print Assumptions C52_topo_completes.

Ltac die E := repeat (first [rewrite sbind_emit in E | (unfold draw in E at 1; rewrite sbind_assoc in E) |
    (rewrite sbind_slift in E; match type of E with match ?r with _ => _ end = _ => destruct r; [|injection E as <- <-; split; [eauto|]] end)]; cbv beta in E).
(** The noise saved by the main script is an array.  If it has two entries or
    more its truth value is an error: the script never gets to its last lines. *)
Theorem C52_topo_noise_array : forall rf ri typed inv fwd truth l a f outs r, (2 <= length l)%nat ->
  topo_plot rf ri typed inv fwd truth (NArr l) a f [] = (outs, r) ->
  (exists e, r = Raise e) /\ forall label v, ~ In (OPrint label v) outs.
Proof.
  intros rf ri typed inv fwd truth l a f outs r Hl E. unfold topo_plot in E. cbv zeta in E.
  assert (T : truthy (NArr l) = Raise ValueError) by (destruct l as [|? [|? ?]]; cbn in *; try lia; reflexivity). rewrite T in E.
  die E; try (injection E as <- <-; split; [eauto|]); intros label v HI; cbn [app In] in HI;
    repeat (destruct HI as [HI|HI]; [discriminate HI|]); exact HI.
Qed.
Print Assumptions C52_topo_noise_array.
(** such a file, with L = 2 *)
Theorem C52_topo_noise_refuted : exists truth noise a f, let Lf := rs_L f in
  readable "analysis" Ok Ok (pa_burn a) f /\ (Lf <= 256)%nat /\ full_shape truth Lf /\ length (cm_buf truth) = (Lf * (2 * Lf - 1))%nat /\
  rs_setting f = Some "analysis"%string /\ pa_npy a = false /\ length noise = (Lf * (2 * Lf - 1))%nat /\
  forall rf ri, exists outs, topo_plot rf ri "" Ok Ok truth (NArr noise) a f [] = (outs, Raise ValueError) /\ forall label v, ~ In (OPrint label v) outs.
Proof.
  set (im := [RtoC 1; RtoC 2; RtoC 3; RtoC 4; RtoC 5; RtoC 6]).
  set (a := mkPlotArgs "." "" 0 false false). set (f := mkResults 2 (Some "analysis"%string) 2 [-2; -1] [im; im]).
  assert (RD : readable "analysis" Ok Ok (pa_burn a) f).
  { unfold readable. cbn [rs_L rs_logpi rs_chain rs_nsamples f pa_burn a length]. split; [lia|]. split; [discriminate|]. split; [lia|]. split; [reflexivity|]. split; [lia|].
    intros s Is. assert (Ls : length s = 6%nat) by (destruct Is as [<-|[<-|[]]]; reflexivity). split; [|eauto].
    exists s. split; [right; split; [discriminate|reflexivity]|exact Ls]. }
  exists (mkCMap 2 3 im), [1; 1; 1; 1; 1; 1], a, f. cbv zeta. split; [exact RD|]. split; [cbn; lia|]. split; [split; reflexivity|].
  split; [reflexivity|]. split; [reflexivity|]. split; [reflexivity|]. split; [reflexivity|]. intros rf ri.
  destruct (C52_topo_completes rf ri "" Ok Ok (mkCMap 2 3 im) (NArr [1; 1; 1; 1; 1; 1]) a f RD) as (_ & _ & P); [cbn; lia|split; reflexivity|reflexivity|].
  destruct (P _ eq_refl ltac:(cbn; lia)) as (outs & E & _). exists outs. split; [exact E|].
  apply (C52_topo_noise_array rf ri "" Ok Ok (mkCMap 2 3 im) [1; 1; 1; 1; 1; 1] a f outs (Raise ValueError) ltac:(cbn; lia) E).
Qed.
Print Assumptions C52_topo_noise_refuted.

(** L = 1, three samples 1, 3, 2, the second and third equally probable, the
    first dropped: MAP 3, mean 5/2, SNR against a truth of 4 *)
Example C52_case : exists outs,
  let a := mkPlotArgs "figs" "_x" 1 false false in let f := mkResults 1 None 3 [-2; -1; -1] [[RtoC 1]; [RtoC 3]; [RtoC 2]] in
  topo_plot (fun _ v => v) (fun _ _ => []) "analysis" Ok Ok (mkCMap 1 1 [RtoC 4]) NoNoise a f [] = (outs, Ok tt) /\
  nth_error outs 8 = Some (OPrint "Mean SNR" (Some (snr [RtoC 4] [RtoC (3 / 2)]))) /\
  nth_error outs 9 = Some (OPrint "MAP SNR" (Some (snr [RtoC 4] [RtoC 1]))) /\
  exists d, nth_error outs 2 = Some (OMap "figs/MAP_x.png" false d).
Proof.
  set (a := mkPlotArgs "figs" "_x" 1 false false). set (f := mkResults 1 None 3 [-2; -1; -1] [[RtoC 1]; [RtoC 3]; [RtoC 2]]).
  assert (RD : readable "analysis" Ok Ok (pa_burn a) f).
  { unfold readable. cbn [rs_L rs_logpi rs_chain rs_nsamples f pa_burn a length]. split; [lia|]. split; [discriminate|]. split; [lia|]. split; [reflexivity|]. split; [lia|].
    intros s Is. assert (Ls : length s = 1%nat) by (destruct Is as [<-|[<-|[<-|[]]]]; reflexivity). split; [|eauto].
    exists s. split; [right; split; [discriminate|reflexivity]|exact Ls]. }
  destruct (C52_topo_completes (fun _ v => v) (fun _ _ => []) "analysis" Ok Ok (mkCMap 1 1 [RtoC 4]) NoNoise a f RD) as (P & _); [cbn; lia|split; reflexivity|reflexivity|].
  destruct (P (or_introl eq_refl) eq_refl) as (outs & E). exists outs. cbv zeta. split; [exact E|].
  assert (Q := E). apply C52_topo in Q; [|intros z [<-|[]]; reflexivity]. destruct Q as (_ & Q). unfold topo_report in Q. cbv zeta in Q.
  destruct Q as (evo & MAP & wv & rows & ci & mean & diff & dm & c & cm & dt & dM & dd & dci & dmean & ddm & extra & _ & Es & _ & _ & _ & Av & D1 & D2 & _ & _ & _ & _ & _ & _ & _ & _ & _ & Ex & ->).
  rewrite (Ex (or_introl eq_refl)). cbn [app nth_error]. unfold prints.
  destruct Es as ((k & X & m & Fk & Ek & Im & Lm & EM & _) & _ & Lr & Rows). specialize (Rows ltac:(cbn; lia) eq_refl).
  assert (Ek1 : k = 1%nat).
  { apply (first_largest_unique [-2; -1; -1]); [exact Fk|]. split; [cbn; lia|]. split.
    - intros [|[|[|i]]] Hi; cbn in *; lra || lia.
    - intros [|i] Hi; [cbn; lra|lia]. }
  subst k. cbn in Ek. injection Ek as <-. destruct Im as [(N & _)|(_ & ->)]; [discriminate|]. cbn [map Re fst RtoC] in EM. subst MAP.
  destruct D1 as (L1 & D1). cbn [cm_buf length Nat.min] in L1, D1. destruct D2 as (L2 & D2). destruct Av as (La & Av).
  cbn [rs_L f Nat.mul Nat.sub Nat.add] in La, Av. rewrite La in L2. cbn in L2.
  assert (A0 := Av 0%nat ltac:(lia)). cbn [skipn Z.to_nat Pos.to_nat pa_burn a rs_chain f] in Rows.
  change (skipn (Pos.to_nat 1) [[RtoC 1]; [RtoC 3]; [RtoC 2]]) with [[RtoC 3]; [RtoC 2]] in Rows.
  assert (Er : rows = [[RtoC 3]; [RtoC 2]]).
  { inversion Rows as [|? r1 ? rest (v1 & I1 & A1) R2]; subst. inversion R2 as [|? r2 ? rest2 (v2 & I2 & A2) R3]; subst. inversion R3; subst.
    destruct I1 as [(N & _)|(_ & ->)]; [discriminate|]. destruct I2 as [(N & _)|(_ & ->)]; [discriminate|].
    assert (G : forall r x, assigned (rs_L f * (2 * rs_L f - 1)) real_part [RtoC x] r -> r = [RtoC x]).
    { intros r x [((_ & A) & Lx)|(z & Ez & ->)].
      - destruct r as [|y [|? ?]]; try discriminate. specialize (A 0%nat ltac:(cbn; lia)). cbn in A. subst y. reflexivity.
      - injection Ez as <-. reflexivity. }
    rewrite (G _ _ A1), (G _ _ A2). reflexivity. }
  subst rows. cbn [map length nth rsum fold_right fst snd RtoC INR] in A0.
  destruct mean as [|m0 [|? ?]]; try discriminate. cbn [nth] in A0. destruct A0 as (A1 & A2). destruct m0 as [x y]. cbn [fst snd] in A1, A2.
  assert (x = 5 / 2) by (rewrite A1; lra). assert (y = 0) by (rewrite A2; lra). subst x y.
  destruct diff as [|z1 [|? ?]]; try discriminate. destruct dm as [|z2 [|? ?]]; try discriminate.
  specialize (D1 0%nat ltac:(lia)). specialize (D2 0%nat ltac:(cbn; lia)). cbn [nth cm_buf] in D1, D2. subst z1 z2.
  split; [|split; [|eexists; reflexivity]].
  - do 5 f_equal. unfold Cminus, Cplus, Copp, RtoC. cbn [fst snd]. f_equal; lra.
  - do 5 f_equal. unfold Cminus, Cplus, Copp, RtoC. cbn [fst snd]. f_equal; lra.
Qed.
