(** Run-level theorems about PxMALA. *)
From Coq Require Import List ZArith Lia Bool String Sorted.
From Verif Require Import PyBase PyBaseFacts Sampler SamplerSpec SamplerFacts MyulaProof LoopProof ScheduleProof SamplerThms PxMalaProof.
Import ListNotations.
Open Scope Z_scope.

Lemma sorted_ext l m :
  StronglySorted lt l -> StronglySorted lt m -> (forall k, In k l <-> In k m) -> l = m.
Proof.
  revert m. induction l as [|x l IH]; intros m Hl Hm E.
  - destruct m as [|y m]; [reflexivity|]. destruct (proj2 (E y)); left; reflexivity.
  - destruct m as [|y m]; [destruct (proj1 (E x)); left; reflexivity|].
    inv Hl. inv Hm. rewrite Forall_forall in H2, H4.
    assert (x = y).
    { destruct (proj1 (E x)) as [|Hx]; [left; reflexivity|congruence|].
      destruct (proj2 (E y)) as [|Hy]; [left; reflexivity|congruence|].
      specialize (H2 _ Hy). specialize (H4 _ Hx). lia. }
    subst y. f_equal. apply IH; auto. intros k. split; intros Hk.
    + destruct (proj1 (E k)) as [->|]; [right; exact Hk| |assumption]. specialize (H2 _ Hk). lia.
    + destruct (proj2 (E k)) as [->|]; [right; exact Hk| |assumption]. specialize (H4 _ Hk). lia.
Qed.

Section Mala.
Context {V D K P G I : Type}.
Notation ops := (ops V D K P G I).
Notation inst := (inst V D K P).
Notation world := (world V D K P G).
Notation entry := (entry V D K).
Notation mh_state := (mh_state V P G).
Notation mtraj := (list (bool * mh_state)).

(** Everything a PxMALA run leaves behind. *)
Definition mala_outcome (o : ops) (prm : params) (tune : bool) (start : I) (w w' : world)
           (tr : mtraj) (l : list entry) : Prop :=
  exists x g0 idx,
    mh_starts o start (w_rng w) x g0 /\
    mh_path o tune 0 (x, i_delta (w_inst w), g0) tr /\
    accepted_on_grid (p_nburn prm) (p_ngap prm) tr idx /\
    Forall2 (mh_entry o tr) idx l /\
    records o (w_inst w) (w_inst w') l /\
    i_acc (w_inst w') = Some (acc_trace tr) /\
    i_deltas (w_inst w') = Some (i_delta (w_inst w) :: delta_trace tune tr) /\
    (exists xl, mlast tr (x, i_delta (w_inst w), g0) = (xl, i_delta (w_inst w'), w_rng w')).

Definition mala_lines (o : ops) (prm : params) (tr : mtraj) (groups : list (list (event K))) : Prop :=
  List.length groups = List.length tr /\
  forall k, (k < List.length tr)%nat ->
    if progress_due prm (Z.of_nat k) then
      exists acc x delta g d lp l2 pr,
        nth_error tr k = Some (acc, (x, delta, g)) /\ o_forward o x = Ok d /\ o_logpi o x d = Ok (lp, l2, pr) /\
        nth_error groups k =
          Some [EvProgress (Z.of_nat (List.length (msaved_idx prm 0 (firstn (S k) tr)))) lp l2 pr
                  (Some (acc_trace (firstn (S k) tr)))]
    else nth_error groups k = Some [].

Definition mala_spec (o : ops) prm tune fuel start (w w' : world) (out : outcome unit) (n : nat) : Prop :=
  match out with
  | Ret _ => exists tr l groups, mala_outcome o prm tune start w w' tr l /\ List.length l = n /\
               (List.length tr <= fuel)%nat /\
               (tr <> [] -> exists m, List.length tr = S m /\ In m (msaved_idx prm 0 tr)) /\
               (n = 0%nat -> tr = []) /\
               mala_lines o prm tr groups /\
               i_out (w_inst w') = i_out (w_inst w) ++ List.concat groups ++ [EvDone]
  | NoFuel => exists tr l groups, mala_outcome o prm tune start w w' tr l /\ (List.length l < n)%nat /\
               List.length tr = fuel /\
               mala_lines o prm tr groups /\
               i_out (w_inst w') = i_out (w_inst w) ++ List.concat groups
  | Exn e => op_raises o e /\
      (same_tracked (w_inst w) (w_inst w') \/
       exists x g0 tr idx l,
         mh_starts o start (w_rng w) x g0 /\
         mh_path o tune 0 (x, i_delta (w_inst w), g0) tr /\
         (List.length tr < fuel)%nat /\ (List.length l < n)%nat /\
         accepted_on_grid (p_nburn prm) (p_ngap prm) tr idx /\
         Forall2 (mh_entry o tr) idx l /\
         crash_rec o prm (Z.of_nat (List.length tr)) (w_inst w) (w_inst w') l)
  end.

Lemma msaved_idx_grid prm (tr : mtraj) : accepted_on_grid (p_nburn prm) (p_ngap prm) tr (msaved_idx prm 0 tr).
Proof. exact (msaved_idx_spec prm tr 0). Qed.

Lemma accepted_unique b g (tr : mtraj) i1 i2 :
  accepted_on_grid b g tr i1 -> accepted_on_grid b g tr i2 -> i1 = i2.
Proof.
  intros (S1 & M1) (S2 & M2). apply sorted_ext; auto. intros k. rewrite M1, M2. reflexivity.
Qed.

Lemma pxmala_run_spec (o : ops) prm tune fuel start (w w' : world) out n :
  sized (w_inst w) n -> p_nsamples prm = Z.of_nat n ->
  pxmala_run o prm tune fuel start w = (w', out) ->
  mala_spec o prm tune fuel start w w' out n.
Proof.
  intros HS HN H. unfold pxmala_run in H.
  set (w1 := mkWorld (set_deltas (Some [i_delta (w_inst w)]) (set_acc (Some []) (w_inst w))) (w_rng w)).
  assert (H1 : bind (initial_sample o start) (fun r => let '(X, preds) := r in
     bind (lift (o_gradg o preds)) (fun gradg => bind (lift (o_proxf o X)) (fun proxf =>
     bind (lift (o_logpi o X preds)) (fun t => let '(logpiXc, L2Xc, priorXc) := t in
       pxmala_loop o prm tune fuel 0 0 (mkMala X preds gradg proxf logpiXc L2Xc priorXc))))) w1 = (w', out)) by exact H.
  clear H.
  assert (ST : same_tracked (w_inst w) (w_inst w1)) by repeat split.
  bcase H1 w2 r E H.
  2:{ destruct (initial_sample_inv _ _ _ _ _ E) as (Hi & [Hst|(x & H1 & H2)]); (split; [|left; rewrite Hi; exact ST]).
      - eapply opr_init; eauto.
      - eapply opr_fwd; eauto. }
  2:{ destruct (initial_sample_inv _ _ _ _ _ E) as (_ & []). }
  destruct r as [X d]. destruct (initial_sample_inv _ _ _ _ _ E) as (Hi & Hst1 & Hst2). clear E.
  bcase H w3 gr E H1.
  2:{ lcase E a Q. split; [eapply opr_gradg; eauto|left; rewrite Hi; exact ST]. }
  2:{ lcase E a Q. }
  lcase E gr1 Qg. rename gr1 into gr.
  bcase H1 w3 p E H.
  2:{ lcase E a Q. split; [eapply opr_proxf; eauto|left; rewrite Hi; exact ST]. }
  2:{ lcase E a Q. }
  lcase E p1 Qp. rename p1 into p.
  bcase H w3 t E H1.
  2:{ lcase E a Q. split; [eapply opr_logpi; eauto|left; rewrite Hi; exact ST]. }
  2:{ lcase E a Q. }
  lcase E t1 Ql. destruct t1 as [[lp l2] pr].
  set (c := mkMala X d gr p lp l2 pr) in *.
  assert (HC : coherent o c) by (repeat split; assumption).
  assert (HR : records o (w_inst w) (w_inst w2) []).
  { rewrite Hi. eapply records_same; [apply records_nil|exact ST]. }
  assert (HA : i_acc (w_inst w2) = Some []) by (rewrite Hi; reflexivity).
  assert (HD : i_deltas (w_inst w2) = Some [i_delta (w_inst w)]) by (rewrite Hi; reflexivity).
  assert (HDE : i_delta (w_inst w2) = i_delta (w_inst w)) by (rewrite Hi; reflexivity).
  assert (HO2 : i_out (w_inst w2) = i_out (w_inst w)) by (rewrite Hi; reflexivity).
  destruct (pxmala_loop_spec o prm tune (w_inst w) n HS HN fuel 0 c w2 w' out [] [] _
              HR (Nat.le_0_l _) HC (Z.le_refl _) HA eq_refl HD H1) as (tr & l & evs & HH & Hlen & HO).
  rewrite HDE in HH, HO. change (m_X c) with X in HH, HO. rewrite HO2 in HO.
  destruct (mhist_saved _ _ _ _ _ _ _ _ _ _ _ HH) as (l' & El & HF). simpl in El. subst l'.
  pose proof (mhist_path _ _ _ _ _ _ _ _ _ _ _ HH) as HP.
  pose proof (msaved_idx_grid prm tr) as HG.
  assert (MS : mh_starts o start (w_rng w) X (w_rng w2)).
  { split; [exact Hst1|]. eauto 10. }
  destruct (mhist_events _ _ _ _ _ _ _ _ _ _ _ HH) as (gr' & Egr & G1 & G2).
  assert (ML : mala_lines o prm tr gr').
  { split; [exact G1|]. intros k Hk. exact (G2 k Hk). }
  assert (OC : records o (w_inst w) (w_inst w') l ->
     i_acc (w_inst w') = Some (acc_trace tr) ->
     i_deltas (w_inst w') = Some ([i_delta (w_inst w)] ++ delta_trace tune tr) ->
     mlast tr (X, i_delta (w_inst w), w_rng w2) =
       (fst (fst (mlast tr (X, i_delta (w_inst w), w_rng w2))), i_delta (w_inst w'), w_rng w') ->
     mala_outcome o prm tune start w w' tr l).
  { intros A B C L. exists X, (w_rng w2), (msaved_idx prm 0 tr).
    split; [exact MS|]. split; [exact HP|]. split; [exact HG|]. split; [exact HF|]. split; [exact A|].
    split; [exact B|]. split; [exact C|]. eexists. exact L. }
  destruct out as [u|e|].
  - destruct HO as (A & B & C & L & N1 & O1). exists tr, l, gr'.
    split; [apply OC; auto|]. split; [exact N1|]. split; [exact Hlen|].
    split. { intros Hne. eapply mhist_minimal; eauto. }
    split. { intros ->. inv HH; [reflexivity|]. simpl in *. lia. }
    split; [exact ML|]. rewrite O1, Egr. reflexivity.
  - destruct HO as (A & B & C & R). split; [exact R|]. right.
    exists X, (w_rng w2), tr, (msaved_idx prm 0 tr), l.
    split; [exact MS|]. split; [exact HP|]. split; [exact B|]. split; [exact A|]. auto.
  - destruct HO as (A & B & C & L & N1 & N2 & O1). exists tr, l, gr'.
    split; [apply OC; auto|]. split; [exact N1|]. split; [exact N2|]. split; [exact ML|]. rewrite O1, Egr. reflexivity.
Qed.

(** ** determinism and comparison *)
Lemma mh_logalpha_det (o : ops) dl x y a b : mh_logalpha o dl x y a -> mh_logalpha o dl x y b -> a = b.
Proof.
  intros (? & ? & ? & ? & ? & ? & ? & ? & ? & ? & ?) (? & ? & ? & ? & ? & ? & ? & ? & ? & ? & ?).
  repeat match goal with H : _ /\ _ |- _ => destruct H end. congruence.
Qed.

Lemma mh_trans_det (o : ops) tune i s a s1 b s2 :
  mh_trans o tune i s a s1 -> mh_trans o tune i s b s2 -> (a, s1) = (b, s2).
Proof.
  destruct s as [[x dl] g], s1 as [[x1 dl1] g1], s2 as [[x2 dl2] g2].
  intros (y & h & u & la & (a1 & a2 & a3 & A1 & A2 & A3 & A4) & B & C & -> & -> & ->).
  intros (y' & h' & u' & la' & (b1 & b2 & b3 & A1' & A2' & A3' & A4') & B' & C' & -> & -> & ->).
  assert ((y, h) = (y', h')) as Q by congruence. inv Q.
  pose proof (mh_logalpha_det _ _ _ _ _ _ B B'). subst la'.
  rewrite C in C'. inv C'. reflexivity.
Qed.

Lemma mh_trans_mono (o1 o2 : ops) tune i s a s1 :
  completes o1 o2 -> mh_trans o1 tune i s a s1 -> mh_trans o2 tune i s a s1.
Proof.
  destruct s as [[x dl] g], s1 as [[x1 dl1] g1].
  intros (C1 & C2 & C3 & C4 & C5 & C6 & C7 & C8 & C9 & C10 & C11 & C12 & C13 & C14 & C15 & C16).
  intros (y & h & u & la & (a1 & a2 & a3 & A1 & A2 & A3 & A4) & B & C & -> & -> & ->).
  exists y, h, u, la. split; [exists a1, a2, a3; auto|].
  rewrite <- C12, C15. split; [|split; [exact C|]].
  - destruct B as (b1 & b2 & b3 & b4 & b5 & b6 & b7 & b8 & q1 & q2 & B).
    exists b1, b2, b3, b4, b5, b6, b7, b8, q1, q2. rewrite <- !C14, <- C13. 
    repeat match goal with H : _ /\ _ |- _ => destruct H end.
    repeat (split; [auto|]). assumption.
  - split; [reflexivity|]. split; [reflexivity|]. destruct tune; [|reflexivity]. apply C16.
Qed.

Lemma mh_path_mono (o1 o2 : ops) tune i s tr :
  completes o1 o2 -> mh_path o1 tune i s tr -> mh_path o2 tune i s tr.
Proof. intros C H. induction H; econstructor; eauto using mh_trans_mono. Qed.

Lemma mh_path_prefix (o : ops) tune i s t1 t2 :
  mh_path o tune i s t1 -> mh_path o tune i s t2 -> (List.length t1 <= List.length t2)%nat ->
  exists r, t2 = t1 ++ r.
Proof.
  intros H. revert t2. induction H as [i s|i s acc s' l HT HP IH]; intros t2 H2 HL.
  - exists t2. reflexivity.
  - inv H2; [simpl in HL; lia|].
    pose proof (mh_trans_det _ _ _ _ _ _ _ _ HT H) as Q. inv Q.
    destruct (IH _ H0) as (r & ->); [simpl in HL; lia|]. exists r. reflexivity.
Qed.

Lemma msaved_idx_app prm (a b : mtraj) : forall i,
  msaved_idx prm i (a ++ b) = msaved_idx prm i a ++ map (fun k => (List.length a + k)%nat) (msaved_idx prm (i + Z.of_nat (List.length a)) b).
Proof.
  induction a as [|p a IH]; intros i.
  - simpl. rewrite Z.add_0_r, map_id. reflexivity.
  - simpl app. change (msaved_idx prm i (p :: a ++ b)) with ((if saves prm i && fst p then [O] else []) ++ map S (msaved_idx prm (i + 1) (a ++ b))).
    rewrite IH, map_app, app_assoc, map_map. f_equal.
    replace (i + 1 + Z.of_nat (List.length a)) with (i + Z.of_nat (List.length (p :: a))) by (simpl List.length; lia).
    reflexivity.
Qed.

Lemma msaved_idx_params prm1 prm2 (tr : mtraj) :
  p_nburn prm1 = p_nburn prm2 -> p_ngap prm1 = p_ngap prm2 ->
  msaved_idx prm1 0 tr = msaved_idx prm2 0 tr.
Proof.
  intros E1 E2. apply (accepted_unique (p_nburn prm1) (p_ngap prm1) tr).
  - apply msaved_idx_grid.
  - rewrite E1, E2. apply msaved_idx_grid.
Qed.

Lemma mh_starts_det (o : ops) st g x g1 y g2 : mh_starts o st g x g1 -> mh_starts o st g y g2 -> x = y /\ g1 = g2.
Proof. intros (A & _) (B & _). rewrite A in B. inv B. auto. Qed.

Lemma mh_starts_mono (o1 o2 : ops) st g x g1 : completes o1 o2 -> mh_starts o1 st g x g1 -> mh_starts o2 st g x g1.
Proof.
  intros (C1 & C2 & C3 & C4 & C5 & _) (A & d & gr & p & t & B1 & B2 & B3 & B4). split; [auto|].
  exists d, gr, p, t. auto.
Qed.

Lemma mala_compare (o1 o2 : ops) b g tune s tr1 tr2 idx1 idx2 (l1 l2 : list entry) w1 w1' w2 w2' j :
  completes o1 o2 ->
  mh_path o1 tune 0 s tr1 -> mh_path o2 tune 0 s tr2 ->
  accepted_on_grid b g tr1 idx1 -> accepted_on_grid b g tr2 idx2 ->
  Forall2 (mh_entry o1 tr1) idx1 l1 -> Forall2 (mh_entry o2 tr2) idx2 l2 ->
  records_torn o1 w1 w1' l1 -> records_torn o2 w2 w2' l2 ->
  (j < List.length l1)%nat -> (j < List.length l2)%nat ->
  rows_agree w1' j w2' j.
Proof.
  intros C P1 P2 A1 A2 F1 F2 R1 R2 J1 J2.
  apply (mh_path_mono _ _ _ _ _ _ C) in P1.
  set (prm := {| p_nsamples := 0; p_nburn := b; p_ngap := g; p_verbosity := 0; p_track := [] |}).
  assert (idx1 = msaved_idx prm 0 tr1) as E1 by (apply (accepted_unique b g tr1); [exact A1|apply (msaved_idx_grid prm)]).
  assert (idx2 = msaved_idx prm 0 tr2) as E2 by (apply (accepted_unique b g tr2); [exact A2|apply (msaved_idx_grid prm)]).
  destruct (nth_error l1 j) as [[[x d] t]|] eqn:N1; [|apply nth_error_None in N1; lia].
  destruct (nth_error l2 j) as [[[x' d'] t']|] eqn:N2; [|apply nth_error_None in N2; lia].
  pose proof (Forall2_length _ _ _ F1) as L1. pose proof (Forall2_length _ _ _ F2) as L2.
  destruct (nth_error idx1 j) as [k1|] eqn:K1; [|apply nth_error_None in K1; lia].
  destruct (nth_error idx2 j) as [k2|] eqn:K2; [|apply nth_error_None in K2; lia].
  destruct (Forall2_nth_error _ _ _ F1 _ _ _ K1 N1) as (B1 & B2 & acc1 & dl1 & g1 & B3).
  destruct (Forall2_nth_error _ _ _ F2 _ _ _ K2 N2) as (D1 & D2 & acc2 & dl2 & g2 & D3).
  unfold e_X, e_D in *. simpl in B1, B2, B3, D1, D2, D3.
  assert (x = x').
  { destruct (le_lt_dec (List.length tr1) (List.length tr2)) as [LE|LE].
    - destruct (mh_path_prefix _ _ _ _ _ _ P1 P2 LE) as (r & ->).
      rewrite E2, msaved_idx_app, <- E1, nth_error_app1 in K2 by lia.
      assert (k1 = k2) by congruence. subst k2.
      rewrite nth_error_app1 in D3 by (apply nth_error_Some; congruence). congruence.
    - destruct (mh_path_prefix _ _ _ _ _ _ P2 P1 ltac:(lia)) as (r & ->).
      rewrite E1, msaved_idx_app, <- E2, nth_error_app1 in K1 by lia.
      assert (k1 = k2) by congruence. subst k2.
      rewrite nth_error_app1 in B3 by (apply nth_error_Some; congruence). congruence. }
  subst x'.
  assert (d = d') by (destruct C as (_ & C2 & _); apply C2 in B1; congruence). subst d'.
  assert (t = t') by (destruct C as (_ & _ & _ & _ & C5 & _); apply C5 in B2; congruence). subst t'.
  eapply describes_agree; eauto; eapply records_torn_row; eauto.
Qed.

(** finished/stopped runs that differ only in N, track, verbosity and fuel *)
Lemma mala_rows_agree (o : ops) prm1 prm2 tune start w1 w1' w2 w2' tr1 tr2 l1 l2 j :
  mala_outcome o prm1 tune start w1 w1' tr1 l1 -> mala_outcome o prm2 tune start w2 w2' tr2 l2 ->
  w_rng w1 = w_rng w2 -> i_delta (w_inst w1) = i_delta (w_inst w2) ->
  p_nburn prm1 = p_nburn prm2 -> p_ngap prm1 = p_ngap prm2 ->
  (j < List.length l1)%nat -> (j < List.length l2)%nat ->
  rows_agree (w_inst w1') j (w_inst w2') j.
Proof.
  intros (x & g0 & idx & A1 & A2 & A3 & A4 & A5 & _) (x' & g0' & idx' & B1 & B2 & B3 & B4 & B5 & _) Hg Hd Hb Hn J1 J2.
  rewrite Hg in A1. destruct (mh_starts_det _ _ _ _ _ _ _ A1 B1) as (<- & <-). rewrite Hd in A2.
  rewrite Hb, Hn in A3.
  exact (mala_compare o o _ _ tune _ tr1 tr2 idx idx' l1 l2 (w_inst w1) _ (w_inst w2) _ j (completes_refl o) A2 B2 A3 B3 A4 B4
           (records_torn_of _ _ _ _ A5) (records_torn_of _ _ _ _ B5) J1 J2).
Qed.

Lemma mh_entry_eq (o : ops) (tr : mtraj) k e1 e2 : mh_entry o tr k e1 -> mh_entry o tr k e2 -> e1 = e2.
Proof.
  destruct e1 as [[x d] t], e2 as [[x' d'] t'].
  intros (A & B & acc & dl & g & C) (A' & B' & acc' & dl' & g' & C'). unfold e_X, e_D in *. simpl in *.
  assert (x = x') by congruence. subst. assert (d = d') by congruence. subst. congruence.
Qed.

(** a finished run on used arrays = a finished run on fresh arrays *)
Lemma mala_same_arrays (o : ops) prm tune start w1 w1' w2 w2' tr1 tr2 l1 l2 n :
  sized (w_inst w1) n -> sized (w_inst w2) n ->
  mala_outcome o prm tune start w1 w1' tr1 l1 -> mala_outcome o prm tune start w2 w2' tr2 l2 ->
  List.length l1 = n -> List.length l2 = n ->
  (tr1 <> [] -> exists m, List.length tr1 = S m /\ In m (msaved_idx prm 0 tr1)) ->
  (tr2 <> [] -> exists m, List.length tr2 = S m /\ In m (msaved_idx prm 0 tr2)) ->
  w_rng w1 = w_rng w2 -> i_delta (w_inst w1) = i_delta (w_inst w2) ->
  same_tracking (w_inst w1) (w_inst w2) ->
  same_arrays (w_inst w1') (w_inst w2') /\ w_rng w1' = w_rng w2' /\
  i_delta (w_inst w1') = i_delta (w_inst w2') /\ i_acc (w_inst w1') = i_acc (w_inst w2') /\
  i_deltas (w_inst w1') = i_deltas (w_inst w2').
Proof.
  intros Z1 Z2 (x & g0 & idx & A1 & A2 & A3 & A4 & A5 & A6 & A7 & xl & A8) (x' & g0' & idx' & B1 & B2 & B3 & B4 & B5 & B6 & B7 & xl' & B8) L1 L2 M1 M2 Hg Hd HT.
  rewrite Hg in A1. destruct (mh_starts_det _ _ _ _ _ _ _ A1 B1) as (<- & <-). rewrite Hd in A2, A7, A8.
  pose proof (accepted_unique _ _ _ _ _ A3 (msaved_idx_grid prm tr1)). subst idx.
  pose proof (accepted_unique _ _ _ _ _ B3 (msaved_idx_grid prm tr2)). subst idx'.
  assert (LEN1 : List.length (msaved_idx prm 0 tr1) = n) by (rewrite (Forall2_length _ _ _ A4); exact L1).
  assert (LEN2 : List.length (msaved_idx prm 0 tr2) = n) by (rewrite (Forall2_length _ _ _ B4); exact L2).
  assert (PRE : forall (ta r : mtraj), List.length (msaved_idx prm 0 ta) = n -> List.length (msaved_idx prm 0 (ta ++ r)) = n ->
    (ta ++ r <> [] -> exists m, List.length (ta ++ r) = S m /\ In m (msaved_idx prm 0 (ta ++ r))) -> r = []).
  { clear. intros ta r E1 E2 M. destruct r as [|p r]; [reflexivity|exfalso].
    destruct M as (m & Em & Hin). { destruct ta; discriminate. }
    rewrite msaved_idx_app in Hin, E2. rewrite app_length in E2, Em. simpl List.length in Em.
    destruct (msaved_idx prm (0 + Z.of_nat (List.length ta)) (p :: r)) as [|q idx]; [|simpl in E2; lia].
    rewrite app_nil_r in Hin. apply (msaved_idx_spec prm ta 0) in Hin.
    destruct Hin as (_ & s & Hs). assert (m < List.length ta)%nat by (apply nth_error_Some; congruence). lia. }
  assert (tr1 = tr2).
  { destruct (le_lt_dec (List.length tr1) (List.length tr2)) as [LE|LE].
    - destruct (mh_path_prefix _ _ _ _ _ _ A2 B2 LE) as (r & ->).
      rewrite (PRE tr1 r LEN1 LEN2 M2). rewrite app_nil_r. reflexivity.
    - destruct (mh_path_prefix _ _ _ _ _ _ B2 A2 ltac:(lia)) as (r & ->).
      rewrite (PRE tr2 r LEN2 LEN1 M1). rewrite app_nil_r. reflexivity. }
  subst tr2.
  assert (l1 = l2).
  { clear -A4 B4. revert l2 B4. induction A4; intros; inv B4; [reflexivity|]. f_equal; [eapply mh_entry_eq; eauto|auto]. }
  subst l2.
  split.
  - destruct A5 as (a1 & a2 & a3 & a4 & a5). destruct B5 as (b1 & b2 & b3 & b4 & b5).
    destruct HT as (h1 & h2 & h3 & h4 & h5).
    destruct Z1 as (z1 & z2 & z3 & z4 & z5). destruct Z2 as (y1 & y2 & y3 & y4 & y5).
    assert (GEN : forall A B (cast : A -> res B) (f : entry -> A) o1 o2 r1 r2,
       rec_arr cast (map f l1) o1 r1 -> rec_arr cast (map f l1) o2 r2 -> len_arr n o1 -> len_arr n o2 ->
       same_presence o1 o2 -> r1 = r2).
    { clear -L1. intros A B cast f [x1|] [x2|] [r1|] [r2|]; simpl; try tauto.
      intros (q1 & F1 & _ & ->) (q2 & F2 & _ & ->) E1 E2 _.
      rewrite map_length, L1. rewrite <- E1 at 1. rewrite skipn_all. rewrite <- E2, skipn_all, !app_nil_r. f_equal.
      clear -F1 F2. revert q2 F2. induction F1; intros; inv F2; [reflexivity|].
      f_equal; [congruence|]. apply IHF1; assumption. }
    repeat split; eapply GEN; eauto.
  - rewrite A8 in B8. inv B8. repeat split; congruence.
Qed.

(** ** termination *)
Lemma mh_path_exists (o : ops) tune : total_ops o -> forall n i s, exists tr, mh_path o tune i s tr /\ List.length tr = n.
Proof.
  intros (T1 & T2 & T3 & T4 & T5 & T6 & T7 & T8 & T9 & T10). induction n as [|n IH]; intros i [[x dl] g].
  - exists []. split; [constructor|reflexivity].
  - destruct (T2 x) as (d & Hd). destruct (T3 d) as (gr & Hgr). destruct (T4 x) as (p & Hp). destruct (T5 x d) as (t & Ht).
    destruct (T6 dl x p gr g) as (y & g1 & Hy).
    destruct (T2 y) as (dy & Hdy). destruct (T3 dy) as (gy & Hgy). destruct (T4 y) as (py & Hpy). destruct (T5 y dy) as (ty & Hty).
    destruct (T8 dl x y p gr) as (q1 & Hq1). destruct (T8 dl y x py gy) as (q2 & Hq2).
    destruct (o_logrand o g1) as [u g2] eqn:Hu.
    set (la := o_ksub o (o_ksub o (o_kadd o q2 (fst (fst ty))) q1) (fst (fst t))).
    set (acc := o_kltb o u la).
    set (s' := (if acc then y else x, if tune then o_tune o dl (b2z acc) i else dl, g2) : mh_state).
    destruct (IH (i + 1) s') as (tr & HP & HL).
    exists ((acc, s') :: tr). split; [|simpl; congruence].
    constructor; [|exact HP].
    exists y, g1, u, la.
    split. { exists d, gr, p. auto. }
    split. { exists d, gr, p, t, dy, gy, py, ty, q1, q2. repeat (split; [assumption|]). reflexivity. }
    auto.
Qed.

Lemma mh_starts_exists (o : ops) st g : total_ops o -> exists x g', mh_starts o st g x g'.
Proof.
  intros (T1 & T2 & T3 & T4 & T5 & _).
  destruct (T1 st g) as (x & g' & E). exists x, g'. split; [exact E|].
  destruct (T2 x) as (d & Hd). destruct (T3 d) as (gr & Hgr). destruct (T4 x) as (p & Hp). destruct (T5 x d) as (t & Ht).
  eauto 10.
Qed.

Lemma mala_terminates_iff (o : ops) prm tune fuel start (w : world) n x g0 tr idx :
  total_ops o -> sized (w_inst w) n -> p_nsamples prm = Z.of_nat n ->
  mh_starts o start (w_rng w) x g0 ->
  mh_path o tune 0 (x, i_delta (w_inst w), g0) tr -> List.length tr = fuel ->
  accepted_on_grid (p_nburn prm) (p_ngap prm) tr idx ->
  ((exists w', pxmala_run o prm tune fuel start w = (w', Ret tt)) <-> (n <= List.length idx)%nat) /\
  (~ (n <= List.length idx)%nat -> exists w', pxmala_run o prm tune fuel start w = (w', NoFuel)).
Proof.
  intros HT HS HN MS MP HL HG.
  destruct (pxmala_run o prm tune fuel start w) as [w' out] eqn:E.
  pose proof (pxmala_run_spec _ _ _ _ _ _ _ _ _ HS HN E) as SP.
  pose proof (accepted_unique _ _ _ _ _ HG (msaved_idx_grid prm tr)). subst idx.
  destruct out as [[]|e|].
  - destruct SP as (tr' & l & gr & (x' & g0' & idx' & B1 & B2 & B3 & B4 & _) & N1 & N2 & _).
    destruct (mh_starts_det _ _ _ _ _ _ _ MS B1) as (<- & <-).
    destruct (mh_path_prefix _ _ _ _ _ _ B2 MP ltac:(lia)) as (r & ->).
    pose proof (accepted_unique _ _ _ _ _ B3 (msaved_idx_grid prm tr')). subst idx'.
    assert (n <= List.length (msaved_idx prm 0 (tr' ++ r)))%nat.
    { rewrite msaved_idx_app, app_length, (Forall2_length _ _ _ B4). lia. }
    split; [split; eauto|tauto].
  - destruct SP as (R & _). destruct (total_no_raise _ _ HT R).
  - destruct SP as (tr' & l & gr & (x' & g0' & idx' & B1 & B2 & B3 & B4 & _) & N1 & N2 & _).
    destruct (mh_starts_det _ _ _ _ _ _ _ MS B1) as (<- & <-).
    destruct (mh_path_prefix _ _ _ _ _ _ B2 MP ltac:(lia)) as (r & ->).
    assert (r = []). { rewrite app_length in HL. destruct r; [reflexivity|simpl in HL; lia]. } subst r.
    rewrite app_nil_r in *.
    pose proof (accepted_unique _ _ _ _ _ B3 (msaved_idx_grid prm tr')). subst idx'.
    rewrite (Forall2_length _ _ _ B4).
    split; [split; [intros (w'' & Q); discriminate|lia]|eauto].
Qed.

End Mala.
