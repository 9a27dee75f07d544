(** C42, the shipped operators: none writes to an existing array, so they can be
    used in the theorems about proxf and the samplers. *)
From Coq Require Import List ZArith Lia Bool Reals Lra String.
From Coquelicot Require Import Coquelicot.
From Verif Require Import PyBase PyBaseFacts CVec Thresh Utils Measure Prior Forward Sampler Mcmc Transforms Arrays ArrSpec ArrProof HSampler HSampSpec HSampProof HMcmc HMcmcSpec HMcmcProof HOps P_Arrays P_HSampler.
Import ListNotations.
Notation length := List.length.
Open Scope R_scope.

(** a call giving a new array with the values v, or the exception v *)
Notation fresh h v := (gives h [] v).

Lemma call_spec : forall f h X, hspec (h_call f X) h (fresh h (f (rd h X))).
Proof. intros f h X. unfold h_call. apply hspec_values. apply hspec_lift; [intros e ->; reflexivity|]. intros y ->. apply alloc_spec. Qed.
Lemma copy_spec : forall h X, hspec (np_array X) h (fresh h (Ok (rd h X))).
Proof. intros h X. unfold np_array. apply hspec_values. apply alloc_spec. Qed.
(** chaining two fresh results *)
Lemma fresh_let : forall (m : H aref) (k : aref -> H aref) h v kv, hspec m h (fresh h v) ->
  (forall x r h1, v = Ok x -> preserves h h1 -> rd h1 r = x -> allocated h1 r -> (length h <= r_cell r)%nat -> hspec (k r) h1 (fresh h1 (kv x))) ->
  hspec (hbind m k) h (fresh h (rbind v kv)).
Proof.
  intros m k h v kv Hm Hk. eapply hspec_let; [exact Hm|intros e h1 -> _; reflexivity|]. intros x r h1 Ev Hp Ar Rr [Hc|[]]. rewrite Ev. cbn [rbind].
  eapply hspec_conseq; [eapply Hk; eauto|]. intros o h' _ Hg. eapply gives_shift; [exact Hp|exact Hg|]. intros c [].
Qed.
Lemma zero_head_scatter : forall v, scatter v (firstn 4 (seq 0 (length v))) (vzero (length (firstn 4 (seq 0 (length v))))) = zero_head v.
Proof. intros [|a [|b [|c [|d v]]]]; try reflexivity. Qed.
Lemma mapping_gen : forall f h X, hspec (let! out := h_call f X in let! _ := h_zero_head out in hret out) h (fresh h (let* out := f (rd h X) in Ok (zero_head out))).
Proof.
  intros f h X. unfold h_call, hspec, hbind, values, hlift. destruct (f (rd h X)) as [v|e]; cbn [fst snd rbind]; [|split; [apply preserves_refl|reflexivity]].
  unfold alloc, h_zero_head, hret, head_view. cbn [fst snd r_cell r_idx].
  assert (E : wr (h ++ [v]) (mkRef (length h) (firstn 4 (seq 0 (length v)))) (vzero (length (firstn 4 (seq 0 (length v))))) = h ++ [zero_head v]).
  { pose proof (wr_temp h [v] 0 (firstn 4 (seq 0 (length v))) (vzero (length (firstn 4 (seq 0 (length v)))))) as W. rewrite Nat.add_0_r in W. rewrite W. cbn [upd nth]. rewrite zero_head_scatter. reflexivity. }
  rewrite E. split; [apply preserves_intro|]. eexists. split; [reflexivity|].
  assert (Lz : length (zero_head v) = length v) by (destruct v as [|a [|b [|c [|d v]]]]; reflexivity).
  split; [unfold allocated; cbn [r_cell]; rewrite app_length; cbn [List.length]; lia|]. split; [|left; cbn [r_cell]; lia].
  rewrite <- Lz. apply rd_full.
Qed.
Lemma mapping_spec : forall w h X, hspec (h_harmonic_mapping w X) h (fresh h (harmonic_mapping w (rd h X))).
Proof. intros w h X. apply mapping_gen. Qed.
Lemma inverse_mapping_spec : forall w h X, hspec (h_harmonic_inverse_mapping w X) h (fresh h (harmonic_inverse_mapping w (rd h X))).
Proof. intros w h X. apply mapping_gen. Qed.
Lemma bool_assign_length : forall f m (x y : vec), bool_assign (RtoC 0) f m x = Ok y -> length y = length f.
Proof.
  assert (S : forall bits f x, length (Measure.scatter (RtoC 0) bits f x) = length f).
  { induction bits as [|b bits IH]; intros [|a f] x; cbn; auto; destruct b; cbn; auto. }
  intros f m x y E. unfold bool_assign in E. destruct (Nat.eqb _ _); [apply Ok_inj in E; subst y; apply S|].
  destruct x as [|z [|? ?]]; try discriminate. apply Ok_inj in E. subst y. apply S.
Qed.
Lemma mask_adjoint_spec : forall L m h X, allocated h X -> hspec (h_mask_adjoint L m X) h (fresh h (mask_adjoint (RtoC 0) L m (rd h X))).
Proof.
  intros L m h X HX. unfold h_mask_adjoint, mask_adjoint, is_not_itself. set (z := repeat (RtoC 0) (L * (2 * L - 1))).
  unfold hspec, hbind, alloc, values, hlift. cbv beta iota. rewrite rd_full, (rd_app h [z] X) by exact HX.
  destruct (bool_assign (RtoC 0) z m (rd h X)) as [y|e] eqn:E; cbn [fst snd]; [|split; [apply preserves_intro|reflexivity]].
  pose proof (bool_assign_length _ _ _ _ E) as Ly. unfold hret. cbn [fst snd].
  assert (W : wr (h ++ [z]) (mkRef (length h) (seq 0 (length z))) y = h ++ [y]).
  { pose proof (wr_temp h [z] 0 (seq 0 (length z)) y) as W. rewrite Nat.add_0_r in W. rewrite W. cbn [upd nth]. rewrite scatter_seq by exact Ly. reflexivity. }
  rewrite W. split; [apply preserves_intro|]. eexists. split; [reflexivity|].
  split; [unfold allocated; cbn [r_cell]; rewrite app_length; cbn [List.length]; lia|]. split; [|left; cbn [r_cell]; lia].
  rewrite <- Ly. apply rd_full.
Qed.
Lemma fresh_implements : forall (P : aheap -> Prop) F f, (forall h X, allocated h X -> hspec (F X) h (fresh h (f (rd h X)))) -> implements P F f.
Proof. intros P F f Hf h X _ HX. eapply hspec_conseq; [apply Hf; exact HX|]. intros o h' _ Hg. eapply gives_weaken; [exact Hg|]. intros c []. Qed.
Lemma guard_spec : forall (F : aref -> H aref) f n e h X, hspec (F X) h (fresh h (f (rd h X))) ->
  hspec (if Nat.eqb (length (r_idx X)) n then F X else hlift (Raise e)) h (fresh h (if Nat.eqb (length (rd h X)) n then f (rd h X) else Raise e)).
Proof. intros F f n e h X Hf. rewrite rd_length. destruct (Nat.eqb _ n); [exact Hf|]. split; [apply preserves_refl|reflexivity]. Qed.
Lemma WL_forward_spec : forall S w h X, allocated h X -> hspec (h_WL_forward S w X) h (fresh h (WL_forward S w (rd h X))).
Proof.
  intros S w h X HX. unfold h_WL_forward, WL_forward.
  apply (guard_spec (fun X => _) (fun x => _)). cbv beta.
  apply (fresh_let _ _ _ _ _ (call_spec _ h X)). intros klm r1 h1 _ _ <- A1 _.
  apply (fresh_let _ _ _ _ _ (mapping_spec _ h1 r1)). intros glm r2 h2 _ _ <- A2 _.
  apply (fresh_let _ _ _ _ _ (call_spec _ h2 r2)). intros gam r3 h3 _ _ <- A3 _.
  apply (fresh_let _ _ _ _ _ (call_spec _ h3 r3)). intros gam' r4 h4 _ _ <- A4 _.
  replace (cov_weight w (rd h4 r4)) with (rbind (cov_weight w (rd h4 r4)) (fun x => Ok x)) by (destruct (cov_weight w (rd h4 r4)); reflexivity).
  apply (fresh_let _ _ _ _ _ (call_spec _ h4 r4)). intros y r5 h5 _ _ <- A5 _. apply copy_spec.
Qed.
Lemma WL_adjoint_spec : forall S w h X, allocated h X -> hspec (h_WL_adjoint S w X) h (fresh h (WL_adjoint S w (rd h X))).
Proof.
  intros S w h X HX. unfold h_WL_adjoint, WL_adjoint.
  apply (fresh_let _ _ _ _ _ (call_spec _ h X)). intros g r1 h1 _ _ <- A1 _.
  apply (fresh_let _ _ _ _ _ (mask_adjoint_spec _ _ h1 r1 A1)). intros g2 r2 h2 _ _ <- A2 _.
  apply (fresh_let _ _ _ _ _ (call_spec _ h2 r2)). intros g3 r3 h3 _ _ <- A3 _.
  apply (fresh_let _ _ _ _ _ (mapping_spec _ h3 r3)). intros g4 r4 h4 _ _ <- A4 _.
  match goal with |- hspec _ _ (fresh _ ?v) => replace v with (rbind v (fun x => Ok x)) by (destruct v; reflexivity) end.
  apply (fresh_let _ _ _ _ _ (call_spec _ h4 r4)). intros y r5 h5 _ _ <- A5 _. apply copy_spec.
Qed.
Lemma py_slice_map : forall {A B} (f : A -> B) l lo hi, py_slice (map f l) lo hi = map f (py_slice l lo hi).
Proof. intros A B f l lo hi. unfold py_slice. rewrite map_length, skipn_map, firstn_map. reflexivity. Qed.
Lemma rd_slice : forall h X lo hi, rd h (mkRef (r_cell X) (py_slice (r_idx X) lo hi)) = py_slice (rd h X) lo hi.
Proof. intros h X lo hi. unfold rd. cbn [r_cell r_idx]. symmetry. apply py_slice_map. Qed.
Lemma analysis_spec : forall f h X, allocated h X -> hspec (h_analysis f X) h (fresh h (let* ws := f (rd h X) in Ok (flatten_mlm (Arr1 (fst ws)) (snd ws)))).
Proof.
  intros f h X HX. unfold h_analysis. pose proof (holds_one h X HX) as Hh. unfold np_array. unfold hbind at 2.
  match goal with |- hspec ?m _ _ => change m with (hbind (values X) (fun x => let! X0 := alloc x in let! x0 := values X0 in let! ws := hlift (f x0) in let! wav := alloc (fst ws) in let! scal := alloc (snd ws) in let! s := values scal in let! w := values wav in alloc (s ++ w))) end.
  eapply step_values; [exact Hh|left; reflexivity|]. eapply step_alloc; [exact Hh|]. intros r1 h1 Hp1 _ H1. eapply step_values; [exact H1|left; reflexivity|].
  eapply step_lift; [reflexivity|]. intros ws _. eapply step_alloc; [exact H1|]. intros r2 h2 Hp2 _ H2. eapply step_alloc; [exact H2|]. intros r3 h3 Hp3 _ H3.
  eapply step_values; [exact H3|left; reflexivity|]. eapply step_values; [exact H3|right; left; reflexivity|].
  eapply hspec_conseq; [apply alloc_spec|]. intros o h4 _ Hg. eapply (gives_shift h h3); [eauto using preserves_trans|exact Hg|]. intros c [].
Qed.
Lemma synthesis_spec : forall n f h X, allocated h X ->
  hspec (h_synthesis n f X) h (fresh h (let* ws := expand_mlm (rd h X) None (Some (Z.of_nat n)) false in f (as_1d (fst ws)) (snd ws))).
Proof.
  intros n f h X HX. unfold h_synthesis, expand_mlm. cbn [rbind fst snd as_1d]. rewrite <- !rd_slice.
  set (wav := mkRef (r_cell X) (py_slice (r_idx X) (Some (Z.of_nat n)) None)). set (scal := mkRef (r_cell X) (py_slice (r_idx X) None (Some (Z.of_nat n)))).
  assert (Aw : allocated h wav) by exact HX. assert (As : allocated h scal) by exact HX.
  match goal with |- hspec (hbind (np_array scal) ?k) _ _ => change (hspec (hbind (values scal) (fun x => hbind (alloc x) k)) h (fresh h (f (rd h wav) (rd h scal)))) end.
  assert (Hh : holds h [(scal, rd h scal); (wav, rd h wav)]) by (apply holds_cons; auto; apply holds_one; auto).
  eapply step_values; [exact Hh|left; reflexivity|]. eapply step_alloc; [exact Hh|]. intros r1 h1 Hp1 _ H1.
  match goal with |- hspec (hbind (np_array wav) ?k) _ ?Q => change (hspec (hbind (values wav) (fun x => hbind (alloc x) k)) h1 Q) end.
  eapply step_values; [exact H1|right; right; left; reflexivity|]. eapply step_alloc; [exact H1|]. intros r2 h2 Hp2 _ H2.
  eapply step_values; [exact H2|left; reflexivity|]. eapply step_values; [exact H2|right; left; reflexivity|].
  apply hspec_lift; [intros e ->; reflexivity|]. intros y ->.
  eapply hspec_conseq; [apply alloc_spec|]. intros o h4 _ Hg. eapply (gives_shift h h2); [eauto using preserves_trans|exact Hg|]. intros c [].
Qed.

(** ** the operators *)
(** Every shipped operator computes the value-level function, writes to no
    existing array and, except for IdentityTransform (which returns its argument),
    returns a new one. *)
Theorem C42_operators : forall h X, allocated h X ->
  (forall ndata npix, hspec (h_Identity_forward ndata npix X) h (fresh h (Identity_forward ndata npix (rd h X)))) /\
  (forall ndata npix, hspec (h_Identity_adjoint ndata npix X) h (fresh h (Identity_adjoint ndata npix (rd h X)))) /\
  (forall P, hspec (h_Path_forward P X) h (fresh h (Path_forward P (rd h X)))) /\
  (forall P, hspec (h_Path_adjoint P X) h (fresh h (Path_adjoint P (rd h X)))) /\
  (forall w, hspec (h_harmonic_mapping w X) h (fresh h (WLH_forward w (rd h X)))) /\
  (forall w, hspec (h_harmonic_mapping w X) h (fresh h (WLH_adjoint w (rd h X)))) /\
  (forall w, hspec (h_harmonic_inverse_mapping w X) h (fresh h (WLH_sks_estimate w (rd h X)))) /\
  (forall S w, hspec (h_WL_forward S w X) h (fresh h (WL_forward S w (rd h X)))) /\
  (forall S w, hspec (h_WL_adjoint S w X) h (fresh h (WL_adjoint S w (rd h X)))) /\
  (forall t, hspec (h_SWT_forward t X) h (fresh h (SWT_forward t (rd h X)))) /\
  (forall t, hspec (h_SWT_inverse t X) h (fresh h (SWT_inverse t (rd h X)))) /\
  (forall t, hspec (h_SWT_inverse_adjoint t X) h (fresh h (SWT_inverse_adjoint t (rd h X)))) /\
  (forall t, hspec (h_SWT_forward_adjoint t X) h (fresh h (SWT_forward_adjoint t (rd h X)))) /\
  (h_IdT X h = (Ok X, h) /\ IdT_forward (rd h X) = Ok (rd h X) /\ IdT_forward_adjoint (rd h X) = Ok (rd h X) /\
   IdT_inverse (rd h X) = Ok (rd h X) /\ IdT_inverse_adjoint (rd h X) = Ok (rd h X)).
Proof.
  intros h X HX.
  split; [intros; apply guard_spec, call_spec|]. split; [intros; apply guard_spec, call_spec|]. split; [intros; apply guard_spec, call_spec|]. split; [intros; apply guard_spec, call_spec|].
  split; [intros; apply mapping_spec|]. split; [intros; apply mapping_spec|]. split; [intros; apply inverse_mapping_spec|].
  split; [intros; apply WL_forward_spec; exact HX|]. split; [intros; apply WL_adjoint_spec; exact HX|].
  split; [intros t; exact (analysis_spec (sw_fwd t (sw_params t)) h X HX)|]. split; [intros t; exact (synthesis_spec (sw_nscal t) (sw_inv t (sw_params t)) h X HX)|].
  split; [intros t; exact (analysis_spec (sw_inv_adj t (sw_params t)) h X HX)|]. split; [intros t; exact (synthesis_spec (sw_nscal t) (sw_fwd_adj t (sw_params t)) h X HX)|].
  repeat split.
Qed.
Print Assumptions C42_operators.

(** ** case *)
(** two data, identity measurement, an array threshold; the start point is the
    reversed view data[::-1] of the data array itself.  After constructing and
    running any of the samplers, data and threshold are as before. *)
Definition case_heap : aheap := [[RtoC 1; RtoC 2]; [RtoC (1/2); RtoC (1/4)]].
Definition case_hf : hforward := mkHF (mkRef 0 [0; 1]%nat) (eye 2 2) "analysis" None (Some (mkHM (h_Identity_forward 2 2) (h_Identity_adjoint 2 2))) (Some 2%nat).
Definition case_f : forward_op := mkFwd (mkData [RtoC 1; RtoC 2] false) (eye 2 2) "analysis" None (Some (mkMeas (Identity_forward 2 2) (Identity_adjoint 2 2))) (Some 2%nat).
Definition case_hp : hprior_obj := mkHPr h_prior (h_proxf (mkHP "analysis" h_IdT h_IdT (HArr (mkRef 1 [0; 1]%nat)))).
Definition case_pr : prior_obj := mkPrior (fun x => Ok (L1_prior x)) (proxf (mkL1 "analysis" IdT_forward IdT_inverse (TVec [1/2; 1/4]))).
Lemma case_heap_later : forall h, nothing_written case_heap h -> preserves case_heap h.
Proof. intros h Hh. apply preserves_iff. exact Hh. Qed.
Example C42_case : forall {G} (R0 : rng G) q prm delta k fuel (g : G) s h1 hw' out,
  (k = KSkrock -> (1 <= n_s q)%Z) ->
  h_new_sampler prm 2 2 delta case_heap = (Ok s, h1) ->
  run_arrays (mcmc_ops R0 case_f case_pr q) (h_mcmc_ops R0 case_hf case_hp q) prm 2 2 k fuel (HStartArray [2%nat] (mkRef 0 [1; 0]%nat)) (mkHW s g h1) = (hw', out) ->
  nth 0 (hw_heap hw') [] = [RtoC 1; RtoC 2] /\ nth 1 (hw_heap hw') [] = [RtoC (1/2); RtoC (1/4)].
Proof.
  intros G R0 q prm delta k fuel g s h1 hw' out Hs En Er.
  assert (FA : forward_on_arrays (nothing_written case_heap) case_hf case_f).
  { constructor; try reflexivity.
    - intros h Hh. destruct (case_heap_later h Hh) as [t ->]. split; [unfold allocated; cbn; lia|]. reflexivity.
    - split; apply fresh_implements; intros h X HX; [exact (proj1 (C42_operators h X HX) 2%nat 2%nat)|exact (proj1 (proj2 (C42_operators h X HX)) 2%nat 2%nat)]. }
  assert (PA : prior_on_arrays (nothing_written case_heap) case_hp case_pr).
  { constructor; [intros h X _ HX; apply h_prior_spec; exact HX|]. apply h_proxf_implements; try reflexivity.
    - intros h h' A B c v Q. apply preserves_iff in B. apply B, A. exact Q.
    - intros h Hh. destruct (case_heap_later h Hh) as [t ->]. split; [cbn; unfold allocated; cbn; lia|]. reflexivity.
    - apply C42_identity.
    - apply C42_identity. }
  assert (SA : start_on_arrays case_heap (HStartArray [2%nat] (mkRef 0 [1; 0]%nat)) (StartArray [2%nat] [RtoC 2; RtoC 1])).
  { split; [reflexivity|]. split; [unfold allocated; cbn; lia|reflexivity]. }
  destruct (C42_session R0 case_hf case_f case_hp case_pr q prm delta k fuel _ _ case_heap g s h1 hw' out Hs FA PA SA En Er) as [N _].
  pose proof (N 0%nat _ eq_refl) as N0. pose proof (N 1%nat _ eq_refl) as N1. split; eapply nth_error_nth; eassumption.
Qed.
