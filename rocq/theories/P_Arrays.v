(** C42 (library calls and the caller's arrays) and the last clause of C21 (hard
    overwrites its argument).  The sampler runs are in P_HSampler.v. *)
From Coq Require Import List ZArith Lia Bool Reals Lra String.
From Coquelicot Require Import Coquelicot.
From Verif Require Import PyBase PyBaseFacts CVec RSort Thresh ThreshProof P_Thresh Utils Quad Prior Arrays ArrSpec ArrProof.
Import ListNotations.
Notation length := List.length.
Open Scope R_scope.

(** ** soft *)
(** soft(X, T) writes to no existing array, whatever aliasing there is, also when
    it raises; its result is a new array with the soft-thresholded values *)
Theorem C42_soft : forall h X T out h', allocated h X -> thr_valid h T -> h_soft X T h = (out, h') ->
  nothing_written h h' /\
  match soft (rd h X) (thr_val h T) with
  | Ok v => exists t, out = Ok t /\ (length h <= r_cell t)%nat /\ rd h' t = v
  | Raise e => out = Raise e
  end.
Proof.
  intros h X T out h' HX HT E. pose proof (h_soft_eval h X T HX HT) as Q. rewrite E in Q. destruct Q as [Hp Q]. split; [apply preserves_iff; exact Hp|].
  destruct (soft (rd h X) (thr_val h T)) as [v|e]; [|exact Q]. destruct Q as [t [A [B [D _]]]]. exists t. repeat split; auto. lia.
Qed.
Print Assumptions C42_soft.

(** ** hard *)
(** hard(X, T) returns the array it was given; afterwards that array holds the
    thresholded values, and no other element of any existing array has changed *)
Theorem C21_overwrites : forall h X T out h', valid_array h X -> h_hard X T h = (out, h') ->
  match hard (rd h X) T with
  | Ok v => out = Ok X /\ rd h' X = v /\ (forall r, allocated h r -> disjoint X r -> rd h' r = rd h r)
  | Raise e => out = Raise e /\ nothing_written h h'
  end.
Proof.
  intros h X T out h' HX E. pose proof (h_hard_eval h X T (proj1 HX)) as Q. rewrite E in Q. destruct (hard (rd h X) T) as [v|e].
  - destruct Q as [A [L [t ->]]]. split; [exact A|]. split.
    + rewrite rd_app by (rewrite wr_length; apply HX). apply rd_wr_same; auto.
    + intros r Hr Hd. rewrite rd_app by (rewrite wr_length; exact Hr). apply rd_wr_other; auto.
  - destruct Q as [A B]. split; [exact A|]. apply preserves_iff. exact B.
Qed.
Print Assumptions C21_overwrites.

(** so if anything nonzero is thresholded away, the caller's data is lost *)
Theorem C21_argument_changed : forall h X T out h' v, valid_array h X -> h_hard X T h = (out, h') -> hard (rd h X) T = Ok v ->
  (rd h' X = rd h X <-> v = rd h X) /\
  (forall i, In i (r_idx X) -> nth i (cell h' (r_cell X)) (RtoC 0) = RtoC 0 \/ nth i (cell h' (r_cell X)) (RtoC 0) = nth i (cell h (r_cell X)) (RtoC 0)).
Proof.
  intros h X T out h' v HX E Ev. pose proof (C21_overwrites h X T out h' HX E) as Q. rewrite Ev in Q. destruct Q as [_ [Er _]]. split; [rewrite Er; reflexivity|].
  intros i Hi. destruct (In_nth _ _ 0%nat Hi) as [k [Hk Ek]].
  assert (N : forall g, nth k (rd g X) (RtoC 0) = nth i (cell g (r_cell X)) (RtoC 0)).
  { intros g. unfold rd. rewrite (nth_indep _ _ (nth (nth k (r_idx X) 0%nat) (cell g (r_cell X)) (RtoC 0))) by (rewrite map_length; exact Hk).
    rewrite (nth_indep _ _ ((fun i => nth i (cell g (r_cell X)) (RtoC 0)) 0%nat)) by (rewrite map_length; exact Hk).
    rewrite (map_nth (fun i => nth i (cell g (r_cell X)) (RtoC 0))). rewrite Ek. reflexivity. }
  rewrite <- !N, Er. unfold hard in Ev. destruct (py_index _ _) as [tv|]; [|discriminate]. cbn [rbind] in Ev. unfold mask_assign in Ev.
  destruct (Nat.eqb _ _) eqn:L; [|discriminate]. apply Nat.eqb_eq in L. injection Ev as <-.
  assert (Hk' : (k < length (rd h X))%nat) by (rewrite rd_length; exact Hk).
  rewrite (nth_map2 _ _ _ k (RtoC 0) false) by (auto; rewrite <- L; auto). destruct (nth k _ false); auto.
Qed.
Print Assumptions C21_argument_changed.

(** ** constructing the wavelet priors *)
(** S2_Wavelets_L1(..., T, ...) with a scalar T writes to nothing; with an array T
    it multiplies that array in place by the weights, keeps that same array, and
    changes no other element.  A failing construction changes nothing. *)
Theorem C42_S2_init : forall h setting fwd adj pf pa T L til out h', match T with HArr r => valid_array h r | HScal _ => True end ->
  h_S2_init setting fwd adj T L til h = (out, h') ->
  match S2_init setting pf pa (thr_val h T) L til with
  | Raise e => out = Raise e /\ h' = h
  | Ok p => exists q, out = Ok q /\ hs_weights q = s_weights p /\ thr_val h' (hp_T (hs_prior q)) = p_T (s_l1 p) /\
      match T with
      | HScal t => nothing_written h h' /\ exists r, hp_T (hs_prior q) = HArr r /\ (length h <= r_cell r)%nat /\ map fst (rd h' r) = map (Rmult t) (s_weights p)
      | HArr r => hp_T (hs_prior q) = HArr r /\
                  (length (s_weights p) = length (r_idx r) \/ length (s_weights p) = 1%nat) /\
                  (forall k, (k < length (r_idx r))%nat ->
                     nth k (rd h' r) (RtoC 0) = RtoC (fst (nth k (rd h r) (RtoC 0)) * nth (if Nat.eqb (length (s_weights p)) (length (r_idx r)) then k else 0%nat) (s_weights p) 0)) /\
                  (forall s, allocated h s -> disjoint r s -> rd h' s = rd h s)
      end
  end.
Proof.
  intros h setting fwd adj pf pa T L til out h' HT E. unfold h_S2_init, h_L1_init in E. unfold S2_init, L1_init.
  destruct (known_setting setting); cbn [rbind]; [|unfold hbind, hlift in E; injection E as <- <-; split; reflexivity].
  erewrite bind_ok in E by reflexivity. destruct (String.eqb setting "synthesis"); [|unfold hlift in E; injection E as <- <-; split; reflexivity].
  destruct (multires_bandlimits L til) as [bls|e]; cbn [rbind]; [|unfold hbind, hlift in E; injection E as <- <-; split; reflexivity].
  erewrite bind_ok in E by reflexivity. destruct (quad_weights bls) as [w|e]; cbn [rbind]; [|unfold hbind, hlift in E; injection E as <- <-; split; reflexivity].
  erewrite bind_ok in E by reflexivity. cbn [hp_T] in E. cbn [p_T].
  pose proof (h_imul_eval h T w) as Q. destruct (h_imul T w h) as [o1 h1] eqn:E1.
  assert (Hv : thr_valid h T) by (destruct T; [exact I|apply HT]). specialize (Q Hv).
  destruct (thr_imul (thr_val h T) w) as [[t|v]|e] eqn:Et; cbn [rbind].
  - contradiction.
  - destruct T as [t|r].
    + destruct Q as [-> ->]. erewrite bind_ok in E by exact E1. unfold hret in E. injection E as <- <-. eexists. split; [reflexivity|]. cbn [hs_weights hs_prior hp_T s_weights s_l1 with_T p_T].
      split; [reflexivity|]. pose proof (rd_full h (map RtoC v)) as Hr. rewrite map_length in Hr. split; [cbn [thr_val]; rewrite Hr, map_fst_RtoC; reflexivity|].
      split; [apply preserves_iff, preserves_intro|]. eexists. split; [reflexivity|]. split; [cbn; lia|]. rewrite Hr, map_fst_RtoC. cbn [thr_val thr_imul] in Et. injection Et as <-. reflexivity.
    + destruct Q as [-> [-> Lv]]. erewrite bind_ok in E by exact E1. unfold hret in E. injection E as <- <-. eexists. split; [reflexivity|]. cbn [hs_weights hs_prior hp_T s_weights s_l1 with_T p_T].
      split; [reflexivity|]. assert (Hr : rd (wr h r (map RtoC v)) r = map RtoC v) by (apply rd_wr_same; [exact HT|rewrite map_length; exact Lv]).
      split; [cbn [thr_val]; rewrite Hr, map_fst_RtoC; reflexivity|]. split; [reflexivity|].
      cbn [thr_val thr_imul] in Et. rewrite map_length in Et. pose proof (rd_length h r) as Lr.
      match type of Et with (if ?b then _ else _) = _ => destruct b eqn:Eb end.
      * apply Nat.eqb_eq in Eb. injection Et as <-. assert (Ew : length w = length (r_idx r)) by (etransitivity; [symmetry; exact Eb|exact Lr]). split; [left; exact Ew|]. split; [|intros s Hs Hd; apply rd_wr_other; auto].
        intros k Hk. rewrite Hr. rewrite Ew, Nat.eqb_refl. rewrite (map_nth RtoC). f_equal.
        rewrite (nth_map2 _ _ _ k 0 0) by (rewrite ?map_length; lia). rewrite (nth_indep _ 0 (fst (RtoC 0))) by (rewrite map_length; lia). rewrite (map_nth fst). reflexivity.
      * apply Nat.eqb_neq in Eb. destruct w as [|c [|]]; try discriminate. injection Et as <-. assert (Ew : length [c] <> length (r_idx r)) by (intros Q; apply Eb; transitivity (length (r_idx r)); [exact Lr|symmetry; exact Q]). split; [right; reflexivity|]. split; [|intros s Hs Hd; apply rd_wr_other; auto].
        intros k Hk. rewrite Hr. rewrite (proj2 (Nat.eqb_neq _ _)) by auto. rewrite map_map, map_map. cbn [nth].
        rewrite (nth_indep _ _ ((fun x : C => RtoC (fst x * c)) (RtoC 0))) by (rewrite map_length; exact (Nat.lt_le_trans _ _ _ Hk (Nat.eq_le_incl _ _ (eq_sym Lr)))). rewrite (map_nth (fun x : C => RtoC (fst x * c))). reflexivity.
  - destruct Q as [-> ->]. erewrite bind_raise in E by exact E1. injection E as <- <-. split; reflexivity.
Qed.
Print Assumptions C42_S2_init.

(** two priors built from one array share it: the second construction also
    rescales the thresholds of the first *)
Theorem C42_shared_T : forall h r s1 f1 a1 L1 til1 s2 f2 a2 L2 til2 q1 h1 q2 h2, valid_array h r ->
  h_S2_init s1 f1 a1 (HArr r) L1 til1 h = (Ok q1, h1) -> h_S2_init s2 f2 a2 (HArr r) L2 til2 h1 = (Ok q2, h2) ->
  length (hs_weights q1) = length (r_idx r) -> length (hs_weights q2) = length (r_idx r) ->
  hp_T (hs_prior q1) = HArr r /\ hp_T (hs_prior q2) = HArr r /\
  forall k, (k < length (r_idx r))%nat ->
    nth k (rd h2 r) (RtoC 0) = RtoC (fst (nth k (rd h r) (RtoC 0)) * nth k (hs_weights q1) 0 * nth k (hs_weights q2) 0).
Proof.
  intros h r s1 f1 a1 L1 til1 s2 f2 a2 L2 til2 q1 h1 q2 h2 Hr E1 E2 W1 W2.
  assert (Hr1 : valid_array h1 r).
  { pose proof (h_imul_eval h (HArr r)) as Q. destruct Hr as [A [B D]]. unfold h_S2_init, h_L1_init in E1. destruct (known_setting s1); [|discriminate]. erewrite bind_ok in E1 by reflexivity.
    destruct (String.eqb s1 "synthesis"); [|discriminate]. destruct (multires_bandlimits L1 til1) as [b|]; [|discriminate]. erewrite bind_ok in E1 by reflexivity.
    destruct (quad_weights b) as [w|]; [|discriminate]. erewrite bind_ok in E1 by reflexivity. specialize (Q w A). cbn [hp_T] in E1. unfold hbind in E1. destruct (h_imul (HArr r) w h) as [o1 g].
    destruct (thr_imul _ w) as [[t|v]|e]; [contradiction| |destruct Q as [-> _]; discriminate]. destruct Q as [-> [-> _]]. injection E1 as _ <-.
    split; [rewrite wr_length; exact A|]. split; [exact B|]. rewrite cell_wr, Nat.eqb_refl by exact A. rewrite scatter_length. exact D. }
  pose proof (C42_S2_init h s1 f1 a1 (fun x => Ok x) (fun x => Ok x) (HArr r) L1 til1 _ _ Hr E1) as Q1.
  pose proof (C42_S2_init h1 s2 f2 a2 (fun x => Ok x) (fun x => Ok x) (HArr r) L2 til2 _ _ Hr1 E2) as Q2.
  destruct (S2_init s1 _ _ _ L1 til1) as [p1|]; [|destruct Q1; discriminate]. destruct (S2_init s2 _ _ _ L2 til2) as [p2|]; [|destruct Q2; discriminate].
  destruct Q1 as [q [Eq [Ew1 [_ [T1 [_ [V1 _]]]]]]]. injection Eq as <-. destruct Q2 as [q [Eq [Ew2 [_ [T2 [_ [V2 _]]]]]]]. injection Eq as <-.
  split; [exact T1|]. split; [exact T2|]. intros k Hk. rewrite V2 by exact Hk. rewrite V1 by exact Hk. rewrite <- Ew1, <- Ew2, W1, W2, Nat.eqb_refl. reflexivity.
Qed.
Print Assumptions C42_shared_T.

Lemma h_imul_frame : forall h T w out h', match T with HArr r => valid_array h r | HScal _ => True end -> h_imul T w h = (out, h') ->
  (forall s, allocated h s -> (forall r, T = HArr r -> disjoint r s) -> rd h' s = rd h s) /\
  (length h <= length h')%nat /\ (forall r, valid_array h r -> valid_array h' r) /\
  match thr_imul (thr_val h T) w with
  | Ok t => exists T', out = Ok T' /\ thr_val h' T' = t /\ (forall r, T = HArr r -> T' = HArr r) /\ match T' with HArr r => valid_array h' r | HScal _ => True end
  | Raise e => out = Raise e /\ h' = h
  end.
Proof.
  intros h T w out h' HT E. assert (Hv : thr_valid h T) by (destruct T; [exact I|apply HT]). pose proof (h_imul_eval h T w Hv) as Q. rewrite E in Q.
  destruct (thr_imul (thr_val h T) w) as [[t|v]|e]; [contradiction| |].
  - destruct T as [t|r].
    + destruct Q as [-> ->]. pose proof (rd_full h (map RtoC v)) as Hr. rewrite map_length in Hr. split; [intros s Hs _; apply rd_app; exact Hs|]. split; [rewrite app_length; lia|].
      split.
      * intros r [A [B D]]. split; [rewrite app_length; lia|]. split; [exact B|]. unfold cell in *. rewrite app_nth1 by exact A. exact D.
      * eexists. split; [reflexivity|]. cbn [thr_val]. rewrite Hr, map_fst_RtoC. split; [reflexivity|]. split; [discriminate|].
        split; cbn [r_cell r_idx]; [rewrite app_length; cbn; lia|]. split; [apply seq_NoDup|]. intros i Hi. apply in_seq in Hi. unfold cell. rewrite nth_last, map_length. lia.
    + destruct Q as [-> [-> L]]. assert (Hr : rd (wr h r (map RtoC v)) r = map RtoC v) by (apply rd_wr_same; [exact HT|rewrite map_length; exact L]).
      assert (VV : forall s, valid_array h s -> valid_array (wr h r (map RtoC v)) s).
      { intros s [A [B D]]. split; [rewrite wr_length; exact A|]. split; [exact B|]. rewrite cell_wr by apply HT. destruct (r_cell s =? r_cell r)%nat; [rewrite scatter_length|]; exact D. }
      split; [intros s Hs Hd; apply rd_wr_other; [exact HT|apply Hd; reflexivity]|]. split; [rewrite wr_length; lia|]. split; [exact VV|].
      eexists. split; [reflexivity|]. cbn [thr_val]. rewrite Hr, map_fst_RtoC. split; [reflexivity|]. split; [intros r' Er; exact Er|]. apply VV. exact HT.
  - destruct Q as [-> ->]. split; [reflexivity|]. split; [lia|]. split; [auto|]. split; reflexivity.
Qed.

(** the power-weighted prior multiplies the array a second time; if it fails
    after the first multiplication, the caller's array has already been changed *)
Theorem C42_Power_init : forall h setting fwd adj pf pa T L til0 til eta out h', match T with HArr r => valid_array h r | HScal _ => True end ->
  h_Power_init setting fwd adj T L til0 til eta h = (out, h') ->
  (forall s, allocated h s -> (forall r, T = HArr r -> disjoint r s) -> rd h' s = rd h s) /\
  match S2_init setting pf pa (thr_val h T) L til, Power_init setting pf pa (thr_val h T) L til0 til eta with
  | Raise e, _ => out = Raise e /\ h' = h
  | Ok p, Raise e => out = Raise e /\ (forall r, T = HArr r -> TVec (map fst (rd h' r)) = p_T (s_l1 p))
  | Ok _, Ok p => exists q, out = Ok q /\ hs_weights q = s_weights p /\ thr_val h' (hp_T (hs_prior q)) = p_T (s_l1 p) /\ (forall r, T = HArr r -> hp_T (hs_prior q) = HArr r)
  end.
Proof.
  intros h setting fwd adj pf pa T L til0 til eta out h' HT E. unfold h_Power_init, h_S2_init, h_L1_init, hbind, hlift, hret in E. unfold Power_init, S2_init, L1_init.
  destruct (known_setting setting); cbv beta iota zeta in E; cbn [rbind]; [|injection E as <- <-; split; [reflexivity|split; reflexivity]].
  destruct (String.eqb setting "synthesis"); cbv beta iota zeta in E; [|injection E as <- <-; split; [reflexivity|split; reflexivity]].
  destruct (multires_bandlimits L til) as [bls|e]; cbv beta iota zeta in E; cbn [rbind]; [|injection E as <- <-; split; [reflexivity|split; reflexivity]].
  destruct (quad_weights bls) as [w|e]; cbv beta iota zeta in E; cbn [rbind]; [|injection E as <- <-; split; [reflexivity|split; reflexivity]].
  cbn [p_T] in *. destruct (h_imul T w h) as [o1 h1] eqn:E1. destruct (h_imul_frame h T w o1 h1 HT E1) as [F1 [Hl1 [V1 Q1]]].
  destruct (thr_imul (thr_val h T) w) as [t1|e] eqn:Et.
  2:{ destruct Q1 as [-> ->]. cbn [hp_T] in E. rewrite E1 in E. injection E as <- <-. split; [reflexivity|]. cbn [rbind]. split; reflexivity. }
  destruct Q1 as [T1 [-> [Tv [Ts Tval]]]]. cbn [hp_T] in E. rewrite E1 in E. cbn [hs_prior hp_T] in E. cbn [rbind s_l1 with_T p_T].
  destruct (scaling_weights til) as [s|e]; cbn [rbind].
  2:{ injection E as <- <-. split; [exact F1|]. split; [reflexivity|]. intros r Er. pose proof (Ts r Er) as E2. subst. reflexivity. }
  destruct (wavelet_weights L til0 til eta) as [ww|e]; cbn [rbind].
  2:{ injection E as <- <-. split; [exact F1|]. split; [reflexivity|]. intros r Er. pose proof (Ts r Er) as E2. subst. reflexivity. }
  destruct ww as [|w0 ww]; [injection E as <- <-; split; [exact F1|]; split; [reflexivity|]; intros r Er; pose proof (Ts r Er) as E2; subst; reflexivity|].
  destruct (all_same (map fst (w0 :: ww))); [injection E as <- <-; split; [exact F1|]; split; [reflexivity|]; intros r Er; pose proof (Ts r Er) as E2; subst; reflexivity|].
  set (w2 := (s ++ List.concat (map snd (w0 :: ww)))%list) in *. destruct (h_imul T1 w2 h1) as [o2 h2] eqn:E2. destruct (h_imul_frame h1 T1 w2 o2 h2 Tval E2) as [F2 [Hl2 [V2 Q2]]].
  rewrite Tv in Q2. 
  assert (FF : forall s0 : aref, allocated h s0 -> (forall r : aref, T = HArr r -> disjoint r s0) -> rd h2 s0 = rd h s0).
  { intros s0 Hs Hd. rewrite F2; [apply F1; auto| |].
    - unfold allocated in *. lia.
    - intros r Er. destruct T as [t|r0].
      + cbn [h_imul] in E1. unfold hbind, alloc, hret in E1. injection E1 as E1 _. subst T1. injection Er as <-. left. cbn. unfold allocated in Hs. lia.
      + apply Hd. rewrite (Ts r0 eq_refl) in Er. exact Er. }
  destruct (thr_imul t1 w2) as [t2|e]; cbn [rbind].
  - destruct Q2 as [T2 [-> [Tv2 [Ts2 _]]]]. injection E as <- <-. split; [exact FF|]. eexists. split; [reflexivity|]. cbn. split; [reflexivity|]. split; [exact Tv2|].
    intros r Er. apply Ts2. apply Ts. exact Er.
  - destruct Q2 as [-> ->]. injection E as <- <-. split; [exact F1|]. split; [reflexivity|]. intros r Er. pose proof (Ts r Er) as E3. subst. reflexivity.
Qed.
Print Assumptions C42_Power_init.

(** ** proxf and prior *)
(** with operators that compute fwd and adj without writing to existing arrays
    (returning the argument itself is allowed), proxf writes to no existing array *)
Theorem C42_proxf : forall h p pp X out h', allocated h X -> thr_valid h (hp_T p) -> thr_val h (hp_T p) = p_T pp -> hp_setting p = p_setting pp ->
  implements (nothing_written h) (hp_fwd p) (p_fwd pp) -> implements (nothing_written h) (hp_adj p) (p_adj pp) ->
  h_proxf p X h = (out, h') ->
  nothing_written h h' /\
  match proxf pp (rd h X) with
  | Ok v => exists r, out = Ok r /\ rd h' r = v /\ ((length h <= r_cell r)%nat \/ r_cell r = r_cell X)
  | Raise e => out = Raise e
  end.
Proof.
  intros h p pp X out h' HX HT Ht Es Hf Ha E.
  assert (Q : implements (nothing_written h) (h_proxf p) (proxf pp)).
  { apply h_proxf_implements; auto.
    - intros g g' A B c v Q. apply preserves_iff in B. apply B, A. exact Q.
    - intros g Hg. apply preserves_iff in Hg. destruct (thr_val_mono h g (hp_T p) Hg HT) as [A B]. split; [exact A|]. rewrite B. exact Ht. }
  destruct (Q h X (fun c v q => q) HX) as [A B]. rewrite E in A, B. cbn [fst snd] in A, B. split; [apply preserves_iff; exact A|].
  unfold gives in B. destruct (proxf pp (rd h X)) as [v|e]; [|exact B]. destruct B as [r [B1 [B2 [B3 B4]]]]. exists r. split; [exact B1|]. split; [exact B3|].
  destruct B4 as [B4|[B4|[]]]; auto.
Qed.
Print Assumptions C42_proxf.

Lemma prior_frame : forall h X, allocated h X -> nothing_written h (snd (h_prior X h)) /\ fst (h_prior X h) = Ok (L1_prior (rd h X)).
Proof. intros h X HX. destruct (h_prior_spec X h HX) as [A B]. split; [apply preserves_iff; exact A|exact B]. Qed.
(** the log-priors write to nothing either *)
Theorem C42_prior : forall h p pp X, allocated h X -> hs_weights p = s_weights pp ->
  (nothing_written h (snd (h_prior X h)) /\ fst (h_prior X h) = Ok (L1_prior (rd h X))) /\
  (nothing_written h (snd (h_S2_prior p X h)) /\ fst (h_S2_prior p X h) = S2_prior pp (rd h X)) /\
  (nothing_written h (snd (h_Power_prior p X h)) /\ fst (h_Power_prior p X h) = Power_prior pp (rd h X)).
Proof.
  intros h p pp X HX Ew. split; [apply prior_frame; exact HX|].
  assert (S2 : forall h X, allocated h X -> hspec (h_S2_prior p X) h (fun o _ => o = S2_prior pp (rd h X))).
  { clear h X HX. intros h X HX. unfold h_S2_prior, S2_prior. rewrite Ew. apply hspec_values. apply hspec_lift; [intros e ->; reflexivity|]. intros y ->. cbn [rbind].
    apply hspec_bind. eapply hspec_conseq; [apply alloc_spec|]. intros o h' Hp [r [-> [A [Er _]]]]. eapply hspec_conseq; [apply h_prior_spec; exact A|]. cbv beta. rewrite Er. auto. }
  split.
  - destruct (S2 h X HX) as [A B]. split; [apply preserves_iff; exact A|exact B].
  - assert (Q : hspec (h_Power_prior p X) h (fun o _ => o = Power_prior pp (rd h X))).
    { unfold h_Power_prior, Power_prior. rewrite Ew. apply hspec_values. apply hspec_lift; [intros e ->; reflexivity|]. intros y ->. cbn [rbind].
      apply hspec_bind. eapply hspec_conseq; [apply alloc_spec|]. intros o h' Hp [r [-> [A [Er _]]]]. eapply hspec_conseq; [apply S2; exact A|]. cbv beta. rewrite Er. auto. }
    destruct Q as [A B]. split; [apply preserves_iff; exact A|exact B].
Qed.
Print Assumptions C42_prior.

(** ** cases *)
(** hard on the slice a[0:4] of a five-element array: the base array is changed *)
Example C21_overwrites_case : forall out h',
  h_hard (mkRef 0 [0; 1; 2; 3]%nat) (1/2) [[RtoC 1; RtoC (-3); RtoC 2; RtoC (1/2); RtoC 7]] = (out, h') ->
  out = Ok (mkRef 0 [0; 1; 2; 3]%nat) /\ cell h' 0 = [RtoC 0; RtoC (-3); RtoC 2; RtoC 0; RtoC 7].
Proof.
  intros out h' E. pose proof (h_hard_eval [[RtoC 1; RtoC (-3); RtoC 2; RtoC (1/2); RtoC 7]] (mkRef 0 [0; 1; 2; 3]%nat) (1/2)) as Q. rewrite E in Q.
  specialize (Q ltac:(cbn; lia)). change (rd _ _) with [RtoC 1; RtoC (-3); RtoC 2; RtoC (1/2)] in Q. rewrite C21_case in Q.
  destruct Q as [A [_ [t ->]]]. split; [exact A|]. reflexivity.
Qed.
(** an operator returning its argument (IdentityTransform, identity measurement) is allowed in C42_proxf *)
Example C42_identity : forall P, implements P (fun X => hret X) (fun x => Ok x).
Proof. intros P h X Ph HX. split; [apply preserves_refl|]. exists X. cbn. repeat split; auto. Qed.
Lemma id_implements : forall h, implements (nothing_written h) (fun X => hret X) (fun x => Ok x).
Proof. intros h. apply C42_identity. Qed.
(** analysis setting with identity operators: the argument survives, proxf = soft *)
Example C42_proxf_case : forall X T out h' v rest, r_cell X = 0%nat ->
  h_proxf (mkHP "analysis" (fun X => hret X) (fun X => hret X) (HScal T)) X (v :: rest) = (out, h') ->
  nth 0 h' [] = v /\ exists r, out = Ok r /\ soft (rd (v :: rest) X) (TScal T) = Ok (rd h' r).
Proof.
  intros X T out h' v rest Hc E.
  assert (HX : allocated (v :: rest) X) by (unfold allocated; rewrite Hc; cbn; lia).
  destruct (C42_proxf (v :: rest) (mkHP "analysis" (fun X => hret X) (fun X => hret X) (HScal T)) (mkL1 "analysis" (fun x => Ok x) (fun x => Ok x) (TScal T)) X out h' HX
    I eq_refl eq_refl (id_implements _) (id_implements _) E) as [A B].
  split; [specialize (A 0%nat v eq_refl); destruct h' as [|y h']; [discriminate|injection A as ->; reflexivity]|].
  set (x := rd (v :: rest) X) in *. unfold proxf in B. cbn [p_setting String.eqb] in B. change (String.eqb "analysis" "synthesis") with false in B. cbv iota in B.
  unfold proxf_analysis in B. cbn [p_adj p_T p_fwd rbind] in B. rewrite soft_scal in B |- *. cbn [rbind] in B.
  unfold np_sub in B. rewrite np_bin_same in B by apply map_length. cbn [rbind] in B. unfold np_add in B. rewrite np_bin_same in B by (rewrite map2_length; rewrite ?map_length; reflexivity).
  destruct B as [r [B1 [B2 _]]]. exists r. split; [exact B1|]. rewrite B2. f_equal. clear. induction x as [|z x IH]; [reflexivity|]. cbn [map map2]. rewrite <- IH. f_equal. ring.
Qed.
