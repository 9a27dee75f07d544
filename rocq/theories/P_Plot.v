(** C40 (plot scaling, slicing, oversampling), C47 (plot_evolution). *)
From Coq Require Import List ZArith Lia Bool Reals Lra String Sorted.
From Coquelicot Require Import Coquelicot.
From Verif Require Import PyBase PyBaseFacts CVec RSort Utils UtilsProof Prior PriorProof Plotting P_Unc.
Import ListNotations.
Notation length := List.length.
Open Scope R_scope.

(** ** lemmas *)
Lemma clex_ltb_fst : forall a b, clex_ltb a b = true -> fst a <= fst b.
Proof. intros a b. unfold clex_ltb. destruct (Rltb_spec (fst a) (fst b)); [lra|]. destruct (Rltb_spec (fst b) (fst a)); [discriminate|lra]. Qed.
Lemma clex_ltb_fst_false : forall a b, clex_ltb a b = false -> fst b <= fst a.
Proof. intros a b. unfold clex_ltb. destruct (Rltb_spec (fst a) (fst b)); [discriminate|]. lra. Qed.
Lemma fold_max : forall l x, let m := fold_left (fun m z => if clex_ltb m z then z else m) l x in
  (In m (x :: l)) /\ forall z, In z (x :: l) -> fst z <= fst m.
Proof.
  induction l as [|y l IH]; intros x; cbn [fold_left].
  - split; [left; auto|]. intros z [->|[]]. lra.
  - set (x' := if clex_ltb x y then y else x). destruct (IH x') as (I & H). split.
    + destruct I as [I|I]; [|right; right; exact I]. rewrite <- I. unfold x'. destruct (clex_ltb x y); [right; left|left]; auto.
    + assert (fst x <= fst x' /\ fst y <= fst x') as (X1 & X2).
      { unfold x'. destruct (clex_ltb x y) eqn:E; [apply clex_ltb_fst in E|apply clex_ltb_fst_false in E]; lra. }
      assert (Q := H x' (or_introl eq_refl)). intros z [<-|[<-|Hz]]; [lra|lra|apply H; right; auto].
Qed.
Lemma fold_min : forall l x, let m := fold_left (fun m z => if clex_ltb z m then z else m) l x in
  (In m (x :: l)) /\ forall z, In z (x :: l) -> fst m <= fst z.
Proof.
  induction l as [|y l IH]; intros x; cbn [fold_left].
  - split; [left; auto|]. intros z [->|[]]. lra.
  - set (x' := if clex_ltb y x then y else x). destruct (IH x') as (I & H). split.
    + destruct I as [I|I]; [|right; right; exact I]. rewrite <- I. unfold x'. destruct (clex_ltb y x); [right; left|left]; auto.
    + assert (fst x' <= fst x /\ fst x' <= fst y) as (X1 & X2).
      { unfold x'. destruct (clex_ltb y x) eqn:E; [apply clex_ltb_fst in E|apply clex_ltb_fst_false in E]; lra. }
      assert (Q := H x' (or_introl eq_refl)). intros z [<-|[<-|Hz]]; [lra|lra|apply H; right; auto].
Qed.
Lemma np_max_spec : forall l m, np_max l = Ok m -> In m l /\ forall z, In z l -> fst z <= fst m.
Proof. intros [|x l] m E; [discriminate|]. injection E as <-. apply fold_max. Qed.
Lemma np_min_spec : forall l m, np_min l = Ok m -> In m l /\ forall z, In z l -> fst m <= fst z.
Proof. intros [|x l] m E; [discriminate|]. injection E as <-. apply fold_min. Qed.
Lemma Cmod_real : forall z, snd z = 0 -> Cmod z = Rabs (fst z).
Proof. intros [a b] H. cbn in H. subst. change (a, 0) with (RtoC a). apply Cmod_R. Qed.
Lemma real_eq : forall z : C, snd z = 0 -> z = RtoC (fst z).
Proof. intros [a b] H. cbn in *. subst. reflexivity. Qed.

(** ** C40: plot_map *)

(** the map that is drawn: the argument, or its oversampled version *)
Definition shown (fwd inv : nat -> vec -> vec) (f : cmap) (a : map_args) (g : cmap) : Prop :=
  if ma_oversample a then oversample fwd inv f 256 = Ok g else g = f.

(** centre0: limits -M, M where M is the largest magnitude drawn (also of masked pixels) *)
Theorem C40_centre0 : forall fwd inv f a d after g, plot_map fwd inv f a = Ok (d, after) -> ma_centre0 a = true ->
  shown fwd inv f a g -> (forall z, In z (cm_buf g) -> snd z = 0) ->
  exists M, dr_vmin d = Some (RtoC (- M)) /\ dr_vmax d = Some (RtoC M) /\
    (forall z, In z (cm_buf g) -> - M <= fst z <= M) /\ exists z, In z (cm_buf g) /\ Rabs (fst z) = M.
Proof.
  intros fwd inv f a d after g E Hc Hs Hr. unfold plot_map in E. unfold shown in Hs.
  assert (G : (if ma_oversample a then oversample fwd inv f 256 else Ok f) = Ok g) by (destruct (ma_oversample a); [exact Hs|subst; reflexivity]).
  rewrite G in E. cbn [rbind] in E. rewrite Hc in E.
  destruct (np_max (cm_buf g)) as [mx|] eqn:Emx; cbn [rbind] in E; [|discriminate].
  destruct (np_min (cm_buf g)) as [mn|] eqn:Emn; cbn [rbind] in E; [|discriminate].
  destruct (np_max_spec _ _ Emx) as (Imx & Hmx). destruct (np_min_spec _ _ Emn) as (Imn & Hmn).
  destruct (match ma_mask a with Some m => apply_mask g m | None => Ok (map Some (cm_buf g)) end) as [px|]; cbn [rbind fst snd] in E; [|discriminate].
  injection E as <- _. cbn [dr_vmin dr_vmax].
  rewrite (Cmod_real mn) by auto. assert (Rmx := real_eq mx (Hr _ Imx)).
  destruct (clex_ltb mx (RtoC (Rabs (fst mn)))) eqn:Q.
  - apply clex_ltb_fst in Q. cbn [fst RtoC] in Q. exists (Rabs (fst mn)). split; [f_equal; rewrite RtoC_opp; reflexivity|]. split; [reflexivity|]. split; [|eauto].
    intros z Hz. specialize (Hmx z Hz). specialize (Hmn z Hz). split; [|lra].
    assert (P := Rle_abs (- fst mn)). rewrite Rabs_Ropp in P. lra.
  - apply clex_ltb_fst_false in Q. cbn [fst RtoC] in Q. exists (fst mx). split; [f_equal; rewrite Rmx at 1; rewrite RtoC_opp; reflexivity|].
    split; [f_equal; exact Rmx|]. assert (P := Rle_abs (- fst mn)). rewrite Rabs_Ropp in P. assert (P0 := Rabs_pos (fst mn)). split.
    + intros z Hz. specialize (Hmx z Hz). specialize (Hmn z Hz). lra.
    + exists mx. split; [exact Imx|]. apply Rabs_right. lra.
Qed.
Print Assumptions C40_centre0.

(** otherwise the limits are the given ones; the drawn pixels are those of the
    shown map with exactly the masked ones blanked; the caller's array changes
    only with a mask and without oversampling *)
Theorem C40_pixels : forall fwd inv f a d after g, plot_map fwd inv f a = Ok (d, after) -> shown fwd inv f a g ->
  dr_L d = cm_rows g /\
  (ma_centre0 a = false -> dr_vmin d = ma_vmin a /\ dr_vmax d = ma_vmax a) /\
  (ma_mask a = None -> dr_pixels d = map Some (cm_buf g)) /\
  (forall m, ma_mask a = Some m -> bm_rows m = cm_rows g /\ bm_cols m = cm_cols g /\
     (length (bm_buf m) = length (cm_buf g) -> length (dr_pixels d) = length (cm_buf g) /\
        forall i, (i < length (cm_buf g))%nat -> nth i (dr_pixels d) None = if nth i (bm_buf m) false then None else Some (nth i (cm_buf g) (RtoC 0)))) /\
  (ma_oversample a = true \/ ma_mask a = None -> after = map Some (cm_buf f)) /\
  (ma_oversample a = false -> after = dr_pixels d).
Proof.
  intros fwd inv f a d after g E Hs. unfold plot_map in E. unfold shown in Hs.
  assert (G : (if ma_oversample a then oversample fwd inv f 256 else Ok f) = Ok g) by (destruct (ma_oversample a); [exact Hs|subst; reflexivity]).
  rewrite G in E. cbn [rbind] in E.
  match type of E with rbind ?X _ = _ => destruct X as [lims|] eqn:El; cbn [rbind] in E; [|discriminate] end.
  match type of E with rbind ?X _ = _ => destruct X as [px|] eqn:Ep; cbn [rbind] in E; [|discriminate] end.
  injection E as <- <-. cbn [dr_L dr_vmin dr_vmax dr_pixels].
  assert (RL : (if ma_oversample a then 256%nat else cm_rows f) = cm_rows g).
  { destruct (ma_oversample a).
    - unfold oversample in Hs. destruct (Z.ltb _ 0); [discriminate|]. injection Hs as <-. reflexivity.
    - subst. reflexivity. }
  split; [exact RL|]. split.
  { intros Hc. rewrite Hc in El. injection El as <-. auto. }
  split.
  { intros Hm. rewrite Hm in Ep. injection Ep as <-. reflexivity. }
  split.
  { intros m Hm. rewrite Hm in Ep. unfold apply_mask in Ep.
    destruct (Nat.eqb_spec (bm_rows m) (cm_rows g)); [|discriminate]. destruct (Nat.eqb_spec (bm_cols m) (cm_cols g)); [|discriminate].
    cbn [andb] in Ep. injection Ep as <-. split; [auto|]. split; [auto|]. intros HL. rewrite map2_length by auto. split; [reflexivity|].
    intros i Hi. rewrite (nth_map2 _ _ _ i (RtoC 0) false) by (rewrite ?HL; auto). reflexivity. }
  split.
  - intros [Ho|Hm]; [rewrite Ho; reflexivity|]. destruct (ma_oversample a) eqn:Ho; [reflexivity|]. subst g. rewrite Hm in Ep. injection Ep as <-. reflexivity.
  - intros Ho. rewrite Ho. reflexivity.
Qed.
Print Assumptions C40_pixels.

(** when plot_map raises *)
Theorem C40_plot_map_errors : forall fwd inv f a,
  (ma_oversample a = true -> (256 < cm_rows f)%nat -> plot_map fwd inv f a = Raise ValueError) /\
  (forall g, shown fwd inv f a g -> ma_centre0 a = true -> cm_buf g = [] -> plot_map fwd inv f a = Raise ValueError) /\
  (forall g m, shown fwd inv f a g -> (ma_centre0 a = true -> cm_buf g <> []) -> ma_mask a = Some m ->
     bm_rows m <> cm_rows g \/ bm_cols m <> cm_cols g -> plot_map fwd inv f a = Raise IndexError) /\
  (forall g, shown fwd inv f a g -> (ma_centre0 a = true -> cm_buf g <> []) ->
     (forall m, ma_mask a = Some m -> bm_rows m = cm_rows g /\ bm_cols m = cm_cols g) -> exists d after, plot_map fwd inv f a = Ok (d, after)).
Proof.
  intros fwd inv f a.
  assert (G : forall g, shown fwd inv f a g -> (if ma_oversample a then oversample fwd inv f 256 else Ok f) = Ok g)
    by (intros g Hs; unfold shown in Hs; destruct (ma_oversample a); [exact Hs|subst; reflexivity]).
  assert (Lim : forall g, (ma_centre0 a = true -> cm_buf g <> []) -> exists l, (if ma_centre0 a then
                 let* mx := np_max (cm_buf g) in
                 let* mn := np_min (cm_buf g) in
                 Ok (Some (- (if clex_ltb mx (RtoC (Cmod mn)) then RtoC (Cmod mn) else mx))%C, Some (if clex_ltb mx (RtoC (Cmod mn)) then RtoC (Cmod mn) else mx))
               else Ok (ma_vmin a, ma_vmax a)) = Ok l).
  { intros g Hg. destruct (ma_centre0 a); [|eauto]. destruct (cm_buf g) as [|x l]; [exfalso; apply Hg; auto|]. cbn [np_max np_min rbind]. eauto. }
  split; [|split; [|split]].
  - intros Ho Hr. unfold plot_map. rewrite Ho. unfold oversample.
    destruct (Z.ltb_spec (Z.of_nat 256 ^ 2 - Z.of_nat (cm_rows f) ^ 2) 0); [reflexivity|nia].
  - intros g Hs Hc Hb. unfold plot_map. rewrite (G g Hs). cbn [rbind]. rewrite Hc, Hb. reflexivity.
  - intros g m Hs Hg Hm Hn. unfold plot_map. rewrite (G g Hs). cbn [rbind]. destruct (Lim g Hg) as (l & ->). cbn [rbind]. rewrite Hm. unfold apply_mask.
    destruct (Nat.eqb_spec (bm_rows m) (cm_rows g)), (Nat.eqb_spec (bm_cols m) (cm_cols g)); try reflexivity. lia.
  - intros g Hs Hg Hm. unfold plot_map. rewrite (G g Hs). cbn [rbind]. destruct (Lim g Hg) as (l & ->). cbn [rbind].
    destruct (ma_mask a) as [m|]; [|cbn [rbind]; eauto]. destruct (Hm m eq_refl) as (Q1 & Q2). unfold apply_mask. rewrite Q1, Q2, !Nat.eqb_refl. cbn [andb rbind]. eauto.
Qed.
Print Assumptions C40_plot_map_errors.

(** ** C40: _oversample *)

(** coefficients: all kept, zeros appended up to L^2 *)
Theorem C40_oversample_coefficients : forall fwd inv f L, length (fwd (cm_rows f) (cm_buf f)) = (cm_rows f ^ 2)%nat ->
  ((cm_rows f <= L)%nat -> exists z, List.Forall (fun c => c = RtoC 0) z /\ length (fwd (cm_rows f) (cm_buf f) ++ z) = (L ^ 2)%nat /\
     oversample fwd inv f L = Ok (mkCMap L (2 * L - 1) (inv L (fwd (cm_rows f) (cm_buf f) ++ z)))) /\
  ((L < cm_rows f)%nat -> oversample fwd inv f L = Raise ValueError).
Proof.
  intros fwd inv f L HL. unfold oversample. split; intros H.
  - destruct (Z.ltb_spec (Z.of_nat L ^ 2 - Z.of_nat (cm_rows f) ^ 2) 0); [nia|].
    exists (repeat (RtoC 0) (Z.to_nat (Z.of_nat L ^ 2 - Z.of_nat (cm_rows f) ^ 2))). split; [|split; [|reflexivity]].
    + apply Forall_forall. intros x Hx. eapply repeat_spec; eauto.
    + rewrite app_length, repeat_length, HL. cbn [Nat.pow]. rewrite !Nat.mul_1_r. lia.
  - destruct (Z.ltb_spec (Z.of_nat L ^ 2 - Z.of_nat (cm_rows f) ^ 2) 0); [reflexivity|nia].
Qed.
Print Assumptions C40_oversample_coefficients.

(** the function with coefficients c over basis functions Y *)
Definition expansion {P} (Y : nat -> P -> C) (c : vec) (p : P) : C := csum (map (fun i => nth i c (RtoC 0) * Y i p)%C (seq 0 (length c))).

(** If pyssht's transforms do what they are documented to do for real functions
    -- the inverse samples the expansion on the grid, the forward recovers the
    coefficients of a band-limited function from its samples -- then _oversample
    returns the samples of the same function on the finer grid. *)
Theorem C40_oversample_same_function : forall {P} (Y : nat -> P -> C) (grid : nat -> list P) (fwd inv : nat -> vec -> vec) f c L,
  let is_real c := forall p, snd (expansion Y c p) = 0 in
  (forall L c, length c = (L ^ 2)%nat -> is_real c -> inv L c = map (expansion Y c) (grid L)) ->
  (forall L c, length c = (L ^ 2)%nat -> is_real c -> fwd L (map (expansion Y c) (grid L)) = c) ->
  length c = (cm_rows f ^ 2)%nat -> is_real c -> cm_buf f = map (expansion Y c) (grid (cm_rows f)) -> (cm_rows f <= L)%nat ->
  oversample fwd inv f L = Ok (mkCMap L (2 * L - 1) (map (expansion Y c) (grid L))).
Proof.
  intros P Y grid fwd inv f c L is_real Hi Hf Lc Rc Hb HL.
  assert (Ef : fwd (cm_rows f) (cm_buf f) = c) by (rewrite Hb; apply Hf; auto).
  destruct (C40_oversample_coefficients fwd inv f L) as (A & _); [rewrite Ef; exact Lc|]. destruct (A HL) as (z & Fz & Lz & ->). rewrite Ef in *.
  assert (Ex : forall p, expansion Y (c ++ z) p = expansion Y c p).
  { intros p. unfold expansion. rewrite app_length, seq_app, map_app, csum_app. cbn [plus]. rewrite (csum_map_0 _ (seq (length c) (length z))).
    - rewrite Cplus_0_r. f_equal. apply map_ext_in. intros i Hi'. apply in_seq in Hi'. rewrite app_nth1 by lia. reflexivity.
    - intros i Hi'. apply in_seq in Hi'. rewrite app_nth2 by lia. rewrite Forall_forall in Fz. rewrite (Fz (nth (i - length c) z (RtoC 0))); [ring|]. apply nth_In. lia. }
  f_equal. f_equal. rewrite Hi; [apply map_ext; exact Ex|exact Lz|]. intros p. rewrite Ex. apply Rc.
Qed.
Print Assumptions C40_oversample_same_function.

(** ** C40: plot_wavelet_maps *)

Lemma wavelet_figs_calls : forall {F} (plot : title -> option C -> cmap -> res F) base vmax f_wav bls start i,
  (start + total_size bls <= length f_wav)%nat ->
  exists maps, wavelet_figs plot base vmax f_wav start i bls = rseq (map2 (fun k m => plot (WaveletTitle base k) vmax m) (seq i (length bls)) maps) /\
    Forall2 (fun b m => cm_rows m = b /\ cm_cols m = (2 * b - 1)%nat /\ length (cm_buf m) = (b * (2 * b - 1))%nat) bls maps /\
    List.concat (map cm_buf maps) = firstn (total_size bls) (skipn start f_wav).
Proof.
  intros F plot base vmax f_wav. induction bls as [|b bls IH]; intros start i L; cbn [wavelet_figs total_size fold_right] in *.
  - exists []. split; [reflexivity|]. split; [constructor|reflexivity].
  - fold (total_size bls) in *. unfold reshape_map. remember (b * (2 * b - 1))%nat as len eqn:Hlen.
    rewrite py_slice_any by lia. replace (start + len - start)%nat with len by lia.
    assert (Lq : length (firstn len (skipn start f_wav)) = len) by (rewrite firstn_length, skipn_length; lia).
    rewrite Lq, Nat.eqb_refl. cbn [rbind].
    destruct (IH (start + len)%nat (S i) ltac:(lia)) as (maps & E' & Fm & Cc).
    exists (mkCMap b (2 * b - 1) (firstn len (skipn start f_wav)) :: maps). split; [|split].
    + cbn [List.length seq map2 rseq]. rewrite E'. reflexivity.
    + constructor; [cbn [cm_rows cm_cols cm_buf]; rewrite <- Hlen; auto|exact Fm].
    + cbn [map List.concat cm_buf]. rewrite Cc.
      assert (SK : skipn (start + len) f_wav = skipn len (skipn start f_wav)).
      { clear. revert f_wav. induction start as [|s IHs]; intros r; [reflexivity|]. destruct r; [rewrite !skipn_nil; reflexivity|]. cbn [plus skipn]. apply IHs. }
      rewrite SK. generalize (skipn start f_wav) len (total_size bls). clear.
      intros q m. revert q. induction m as [|m IHm]; intros q n; [reflexivity|]. destruct q; [rewrite ?skipn_nil, ?firstn_nil; reflexivity|].
      cbn. f_equal. apply IHm.
Qed.

(** One figure for the scaling coefficients and one per further scale, numbered
    from 1, whose maps of shape (bl, 2bl-1) cut the leading sum of bl(2bl-1)
    wavelet coefficients (all of them if there are no more) into consecutive
    pieces.  With same_scale all wavelet figures share the largest real part as
    upper limit; the scaling figure does not. *)
Theorem C40_wavelet_maps : forall {F} (plot : title -> option C -> cmap -> res F) L til f_wav f_scal same_scale ttl vmax b0 bls,
  let base := match ttl with Some t => t | None => ""%string end in
  multires_bandlimits L til = Ok (b0 :: bls) -> length f_scal = (b0 * (2 * b0 - 1))%nat -> (total_size bls <= length f_wav)%nat ->
  (same_scale = true -> f_wav <> []) ->
  exists maps vmax', plot_wavelet_maps plot L til f_wav f_scal same_scale ttl vmax =
      rseq (plot (ScalingTitle base) vmax (mkCMap b0 (2 * b0 - 1) f_scal) ::
            map2 (fun k m => plot (WaveletTitle base k) vmax' m) (seq 1 (length bls)) maps) /\
    Forall2 (fun b m => cm_rows m = b /\ cm_cols m = (2 * b - 1)%nat /\ length (cm_buf m) = (b * (2 * b - 1))%nat) bls maps /\
    List.concat (map cm_buf maps) = firstn (total_size bls) f_wav /\
    (total_size bls = length f_wav -> List.concat (map cm_buf maps) = f_wav) /\
    (same_scale = false -> vmax' = vmax) /\
    (same_scale = true -> exists r, vmax' = Some (RtoC r) /\ largest (map fst f_wav) r).
Proof.
  intros F plot L til f_wav f_scal same ttl vmax b0 bls base Hb Ls Lw Hn.
  assert (V : exists v, (if same then let* m := np_max f_wav in Ok (Some (RtoC (fst m))) else Ok vmax) = Ok v /\ (same = false -> v = vmax) /\
     (same = true -> exists r, v = Some (RtoC r) /\ largest (map fst f_wav) r)).
  { destruct same; [|exists vmax; split; [reflexivity|split; [auto|discriminate]]].
    destruct (np_max f_wav) as [m|] eqn:E.
    - exists (Some (RtoC (fst m))). split; [reflexivity|]. split; [discriminate|]. intros _. exists (fst m). split; [reflexivity|].
      destruct (np_max_spec _ _ E) as (I & H). split; [apply in_map; exact I|]. intros x Hx. apply in_map_iff in Hx. destruct Hx as (z & <- & Hz). auto.
    - exfalso. destruct f_wav; [apply Hn; auto|discriminate]. }
  destruct V as (v & Ev & V1 & V2).
  destruct (wavelet_figs_calls plot base v f_wav bls 0 1 ltac:(lia)) as (maps & E & Fm & Cc). exists maps, v.
  split; [|split; [exact Fm|split; [exact Cc|split; [intros Q; rewrite Cc, Q; cbn [skipn]; apply firstn_all|split; auto]]]].
  unfold plot_wavelet_maps. rewrite Hb. cbn [rbind]. fold base. change (py_index (b0 :: bls) 0) with (@Ok nat b0).
  cbn [rbind]. unfold reshape_map. rewrite Ls, Nat.eqb_refl. cbn [rbind rseq].
  destruct (plot (ScalingTitle base) vmax (mkCMap b0 (2 * b0 - 1) f_scal)); cbn [rbind]; [|reflexivity]. rewrite Ev. cbn [rbind].
  assert (SL : py_slice (b0 :: bls) (Some 1%Z) None = bls).
  { change (Some 1%Z) with (Some (Z.of_nat 1)). rewrite py_slice_from by (cbn; lia). reflexivity. }
  rewrite SL, E. reflexivity.
Qed.
Print Assumptions C40_wavelet_maps.

Theorem C40_wavelet_maps_errors : forall {F} (plot : title -> option C -> cmap -> res F) L til f_wav f_scal same_scale ttl vmax b0 bls,
  let base := match ttl with Some t => t | None => ""%string end in
  multires_bandlimits L til = Ok (b0 :: bls) ->
  (length f_scal <> (b0 * (2 * b0 - 1))%nat -> plot_wavelet_maps plot L til f_wav f_scal same_scale ttl vmax = Raise ValueError) /\
  (length f_scal = (b0 * (2 * b0 - 1))%nat -> (forall t v m, exists fig, plot t v m = Ok fig) -> bls <> [] -> (length f_wav < total_size bls)%nat ->
     plot_wavelet_maps plot L til f_wav f_scal same_scale ttl vmax = Raise ValueError).
Proof.
  intros F plot L til f_wav f_scal same ttl vmax b0 bls base Hb. unfold plot_wavelet_maps. rewrite Hb. cbn [rbind]. fold base.
  change (py_index (b0 :: bls) 0) with (@Ok nat b0). cbn [rbind]. unfold reshape_map at 1 2. split.
  - intros Hl. destruct (Nat.eqb_spec (length f_scal) (b0 * (2 * b0 - 1))); [contradiction|reflexivity].
  - intros Hl Hp NE Hs. rewrite Hl, Nat.eqb_refl. cbn [rbind]. destruct (Hp (ScalingTitle base) vmax (mkCMap b0 (2 * b0 - 1) f_scal)) as (f0 & ->). cbn [rbind].
    assert (SL : py_slice (b0 :: bls) (Some 1%Z) None = bls).
    { change (Some 1%Z) with (Some (Z.of_nat 1)). rewrite py_slice_from by (cbn; lia). reflexivity. }
    rewrite SL.
    assert (Pos : forall b, In b bls -> (1 <= b)%nat) by (intros b Hbb; eapply bandlimits_pos; [exact Hb|right; exact Hbb]).
    assert (W : forall v start i, (length f_wav < start + total_size bls)%nat -> wavelet_figs plot base v f_wav start i bls = Raise ValueError).
    { clear SL Hb Hs. induction bls as [|b bls IH]; [congruence|]. intros v start i Q. cbn [wavelet_figs total_size fold_right] in *. fold (total_size bls) in *.
      assert (B := Pos b (or_introl eq_refl)). assert (P0 : (0 < b * (2 * b - 1))%nat) by nia. unfold reshape_map. remember (b * (2 * b - 1))%nat as len eqn:Hlen.
      rewrite py_slice_any by lia. replace (start + len - start)%nat with len by lia. rewrite firstn_length, skipn_length.
      destruct (Nat.eqb_spec (Nat.min len (length f_wav - start)) len) as [Q2|]; [|reflexivity]. cbn [rbind].
      destruct (Hp (WaveletTitle base i) v (mkCMap b (2 * b - 1) (firstn len (skipn start f_wav)))) as (fi & ->). cbn [rbind].
      rewrite IH; [reflexivity| | |lia].
      - intros ->. cbn in Q. lia.
      - intros b' Hb'. apply Pos. right; exact Hb'. }
    destruct same.
    + destruct f_wav as [|x l]; [reflexivity|]. cbn [np_max rbind]. rewrite W by lia. reflexivity.
    + cbn [rbind]. rewrite W by lia. reflexivity.
Qed.
Print Assumptions C40_wavelet_maps_errors.

(** a 1x1 map of value -3: limits -3 and 3; a map masked in place *)
Example C40_case : forall fwd inv,
  (exists d after, plot_map fwd inv (mkCMap 1 1 [RtoC (-3)]) (mkArgs None None false true None) = Ok (d, after) /\
     dr_vmin d = Some (RtoC (- 3)) /\ dr_vmax d = Some (RtoC 3)) /\
  plot_map fwd inv (mkCMap 1 1 [RtoC 2]) (mkArgs None (Some (RtoC 9)) false false (Some (mkMask 1 1 [true]))) =
    Ok (mkDrawing 1 [None] None (Some (RtoC 9)), [None]).
Proof.
  intros fwd inv. split; [|reflexivity].
  destruct (C40_plot_map_errors fwd inv (mkCMap 1 1 [RtoC (-3)]) (mkArgs None None false true None)) as (_ & _ & _ & A).
  destruct (A (mkCMap 1 1 [RtoC (-3)]) eq_refl) as (d & after & E); [discriminate|discriminate|]. exists d, after. split; [exact E|].
  destruct (C40_centre0 _ _ _ _ _ _ (mkCMap 1 1 [RtoC (-3)]) E eq_refl eq_refl) as (M & -> & -> & _ & z & Hz & HM).
  { intros z [<-|[]]. reflexivity. }
  cbn [cm_buf In] in Hz. destruct Hz as [<-|[]]. cbn [fst RtoC] in HM. rewrite Rabs_left in HM by lra. replace M with 3 by lra. auto.
Qed.

(** ** C47: plot_evolution and plot_chain_sample *)
Lemma fold_rmax : forall l x, let m := fold_left (fun m v => if Rltb m v then v else m) l x in In m (x :: l) /\ forall z, In z (x :: l) -> z <= m.
Proof.
  induction l as [|y l IH]; intros x; cbn [fold_left].
  - split; [left; auto|]. intros z [->|[]]. lra.
  - set (x' := if Rltb x y then y else x). destruct (IH x') as (I & H). split.
    + destruct I as [I|I]; [|right; right; exact I]. rewrite <- I. unfold x'. destruct (Rltb x y); [right; left|left]; auto.
    + assert (x <= x' /\ y <= x') as (X1 & X2) by (unfold x'; destruct (Rltb_spec x y); lra).
      assert (Q := H x' (or_introl eq_refl)). intros z [<-|[<-|Hz]]; [lra|lra|apply H; right; auto].
Qed.
(** the marked samples are exactly those of largest log posterior, in order *)
Theorem C47_map_index : forall lp,
  (lp <> [] -> exists idx, plot_evolution lp = Ok (map Ropp lp, idx) /\ idx <> [] /\ Sorted lt idx /\
     forall i, In i idx <-> ((i < length lp)%nat /\ forall j, (j < length lp)%nat -> nth j lp 0 <= nth i lp 0)) /\
  (lp = [] -> plot_evolution lp = Raise ValueError).
Proof.
  intros lp. split; [|intros ->; reflexivity]. intros NE. destruct lp as [|x l]; [congruence|]. unfold plot_evolution.
  set (lp := x :: l) in *. destruct (fold_rmax l x) as (I & H). fold lp in I, H. set (m := fold_left _ l x) in *.
  exists (filter (fun i => Reqb (nth i lp 0) m) (seq 0 (length lp))). split; [reflexivity|].
  assert (M : forall i, In i (filter (fun i => Reqb (nth i lp 0) m) (seq 0 (length lp))) <-> ((i < length lp)%nat /\ forall j, (j < length lp)%nat -> nth j lp 0 <= nth i lp 0)).
  { intros i. rewrite filter_In, in_seq, Reqb_true. split.
    - intros ((_ & Hi) & E). split; [lia|]. intros j Hj. rewrite E. apply H. apply nth_In. exact Hj.
    - intros (Hi & Hj). split; [lia|]. apply Rle_antisym; [apply H, nth_In; exact Hi|].
      apply In_nth with (d := 0) in I. destruct I as (k & Hk & <-). apply Hj. exact Hk. }
  split; [|split; [|exact M]].
  - apply In_nth with (d := 0) in I. destruct I as (k & Hk & Ek). intros Q. assert (In k []); [|contradiction]. rewrite <- Q. apply filter_In.
    split; [apply in_seq; lia|]. apply Reqb_true. exact Ek.
  - clear. assert (G : forall n s, Sorted lt (filter (fun i => Reqb (nth i lp 0) m) (seq s n)) /\ forall i, In i (filter (fun i => Reqb (nth i lp 0) m) (seq s n)) -> (s <= i)%nat).
    { induction n as [|n IH]; intros s; cbn [seq filter]; [split; [constructor|contradiction]|]. destruct (IH (S s)) as (A & B).
      destruct (Reqb (nth s lp 0) m).
      - split; [constructor; [exact A|]|].
        + destruct (filter _ (seq (S s) n)) as [|k q]; constructor. specialize (B k (or_introl eq_refl)). lia.
        + intros i [<-|Hi]; [lia|specialize (B i Hi); lia].
      - split; [exact A|]. intros i Hi. specialize (B i Hi). lia. }
    apply G.
Qed.
Print Assumptions C47_map_index.
Theorem C47_chain_sample : forall X, map2 (fun a b => (a, b) : C) (fst (plot_chain_sample X)) (snd (plot_chain_sample X)) = X.
Proof. induction X as [|[a b] X IH]; [reflexivity|]. cbn in *. rewrite IH. reflexivity. Qed.
Print Assumptions C47_chain_sample.
Example C47_case : exists idx, plot_evolution [-5; -1; -3; -1] = Ok (map Ropp [-5; -1; -3; -1], idx) /\ In 1%nat idx /\ In 3%nat idx /\ ~ In 0%nat idx.
Proof.
  destruct (C47_map_index [-5; -1; -3; -1]) as (A & _). destruct A as (idx & E & _ & _ & M); [discriminate|]. exists idx. split; [exact E|].
  split; [|split].
  - apply M. cbn [List.length]. split; [lia|]. intros j Hj. destruct j as [|[|[|[|]]]]; cbn; lra || lia.
  - apply M. cbn [List.length]. split; [lia|]. intros j Hj. destruct j as [|[|[|[|]]]]; cbn; lra || lia.
  - intros Q. apply M in Q. destruct Q as (_ & Q). specialize (Q 1%nat ltac:(cbn; lia)). cbn in Q. lra.
Qed.
