(** Loop invariants of MYULA.run and SKROCK.run. *)
From Coq Require Import List ZArith Lia Bool String.
From Verif Require Import PyBase PyBaseFacts Sampler SamplerSpec SamplerFacts.
Import ListNotations.
Open Scope Z_scope.

Section Myula.
Context {V D K P G I : Type}.
Variable o : ops V D K P G I.
Variable prm : params.
Notation inst := (inst V D K P).
Notation world := (world V D K P G).
Notation entry := (entry V D K).
Notation cstate := (cstate V D G).

(** some operator or row store raised [e] *)
Inductive op_raises (e : exn) : Prop :=
| opr_init s g g' : o_init o s g = (Raise e, g') -> op_raises e
| opr_fwd x : o_forward o x = Raise e -> op_raises e
| opr_gradg d : o_gradg o d = Raise e -> op_raises e
| opr_proxf x : o_proxf o x = Raise e -> op_raises e
| opr_logpi x d : o_logpi o x d = Raise e -> op_raises e
| opr_step p x y z g g' : o_step o p x y z g = (Raise e, g') -> op_raises e
| opr_skstep p x g g' : o_skstep o p x g = (Raise e, g') -> op_raises e
| opr_logtrans p x y z t : o_logtrans o p x y z t = Raise e -> op_raises e
| opr_rowV x : o_rowV o x = Raise e -> op_raises e
| opr_rowD d : o_rowD o d = Raise e -> op_raises e.

Definition saves (i : Z) : bool := (p_nburn prm <=? i) && grid_hit prm i.

(** what an exception in iteration [i] leaves behind *)
Definition crash_rec (i : Z) (s0 s : inst) (l : list entry) : Prop :=
  if saves i then records_torn o s0 s l else records o s0 s l.

Lemma crash_rec_of i s0 s l : records o s0 s l -> crash_rec i s0 s l.
Proof. unfold crash_rec. destruct (saves i); [apply records_torn_of|auto]. Qed.

Definition saved_step (i : Z) (x : V) (d : D) (l l1 : list entry) : Prop :=
  if saves i then exists t, o_logpi o x d = Ok t /\ l1 = l ++ [(x, d, t)] else l1 = l.

(** the line describes the last saved entry; with nothing saved yet it shows
    count 0 and the last row ([-1]) of the arrays as they were *)
Definition progress_of (s0 : inst) (l : list entry) (ev : event K) : Prop :=
  (l = [] -> exists lps l2s prs lp l2 pr,
     i_logPi s0 = Some lps /\ i_L2s s0 = Some l2s /\ i_priors s0 = Some prs /\
     nth_error lps (List.length lps - 1) = Some lp /\ nth_error l2s (List.length l2s - 1) = Some l2 /\
     nth_error prs (List.length prs - 1) = Some pr /\ ev = EvProgress 0 lp l2 pr None) /\
  forall l0 e, l = l0 ++ [e] ->
    ev = EvProgress (Z.of_nat (List.length l)) (o_rowK o (e_logPi e)) (o_rowK o (e_L2 e))
                    (o_rowK o (e_prior e)) None.

Definition myula_events (s0 : inst) (i : Z) (l1 : list entry) (evs : list (event K)) : Prop :=
  if progress_due prm i then
    if p_nburn prm <=? i then exists ev, evs = [ev] /\ progress_of s0 l1 ev
    else evs = [EvBurning]
  else evs = [].

Definition skrock_events (s0 : inst) (i : Z) (l1 : list entry) (evs : list (event K)) : Prop :=
  if progress_due prm i then exists ev, evs = [ev] /\ progress_of s0 l1 ev else evs = [].

Definition keeps (s s' : inst) : Prop :=
  i_acc s' = i_acc s /\ i_deltas s' = i_deltas s /\ i_delta s' = i_delta s.

Definition untracked (s : inst) : Prop :=
  i_logPi s = None \/ i_L2s s = None \/ i_priors s = None.

Lemma tracking_exn j x d a b c (w w' : world) e n :
  0 <= j < Z.of_nat n -> sized (w_inst w) n ->
  tracking o j x d a b c w = (w', Exn e) -> op_raises e.
Proof.
  intros Hj (S1 & S2 & S3 & S4 & S5) H. unfold tracking in H.
  destruct (bind_inv _ _ _ _ _ H) as [(w1 & [] & E1 & H1)|[(e1 & E1 & Q)|(E1 & Q)]]; [| |discriminate].
  2:{ exfalso. destruct (store_spec i_logPi set_logPi _ _ _ _ _ n Hj S1 E1) as (_ & C).
      destruct (i_logPi (w_inst w)); destruct C; discriminate. }
  destruct (store_spec i_logPi set_logPi _ _ _ _ _ n Hj S1 E1) as (_ & C1).
  assert (Q1 : i_L2s (w_inst w1) = i_L2s (w_inst w) /\ i_priors (w_inst w1) = i_priors (w_inst w) /\
          i_preds (w_inst w1) = i_preds (w_inst w) /\ i_chain (w_inst w1) = i_chain (w_inst w)).
  { destruct (i_logPi (w_inst w)); destruct C1 as (_ & C1); rewrite C1; repeat split. }
  destruct Q1 as (q1 & q2 & q3 & q4). rewrite <- q1 in S2. rewrite <- q2 in S3. rewrite <- q3 in S4. rewrite <- q4 in S5.
  clear C1 q1 q2 q3 q4 E1 H.
  destruct (bind_inv _ _ _ _ _ H1) as [(w2 & [] & E1 & H2)|[(e1 & E1 & Q)|(E1 & Q)]]; [| |discriminate].
  2:{ exfalso. destruct (store_spec i_L2s set_L2s _ _ _ _ _ n Hj S2 E1) as (_ & C).
      destruct (i_L2s (w_inst w1)); destruct C; discriminate. }
  destruct (store_spec i_L2s set_L2s _ _ _ _ _ n Hj S2 E1) as (_ & C1).
  assert (Q1 : i_priors (w_inst w2) = i_priors (w_inst w1) /\
          i_preds (w_inst w2) = i_preds (w_inst w1) /\ i_chain (w_inst w2) = i_chain (w_inst w1)).
  { destruct (i_L2s (w_inst w1)); destruct C1 as (_ & C1); rewrite C1; repeat split. }
  destruct Q1 as (q2 & q3 & q4). rewrite <- q2 in S3. rewrite <- q3 in S4. rewrite <- q4 in S5.
  clear C1 q2 q3 q4 E1 H1.
  destruct (bind_inv _ _ _ _ _ H2) as [(w3 & [] & E1 & H3)|[(e1 & E1 & Q)|(E1 & Q)]]; [| |discriminate].
  2:{ exfalso. destruct (store_spec i_priors set_priors _ _ _ _ _ n Hj S3 E1) as (_ & C).
      destruct (i_priors (w_inst w2)); destruct C; discriminate. }
  destruct (store_spec i_priors set_priors _ _ _ _ _ n Hj S3 E1) as (_ & C1).
  assert (Q1 : i_preds (w_inst w3) = i_preds (w_inst w2) /\ i_chain (w_inst w3) = i_chain (w_inst w2)).
  { destruct (i_priors (w_inst w2)); destruct C1 as (_ & C1); rewrite C1; repeat split. }
  destruct Q1 as (q3 & q4). rewrite <- q3 in S4. rewrite <- q4 in S5.
  clear C1 q3 q4 E1 H2.
  destruct (bind_inv _ _ _ _ _ H3) as [(w4 & [] & E1 & H4)|[(e1 & E1 & Q)|(E1 & Q)]]; [| |discriminate].
  2:{ destruct (store_spec i_preds set_preds _ _ _ _ _ n Hj S4 E1) as (_ & C).
      destruct (i_preds (w_inst w3)); [|destruct C; discriminate].
      destruct (o_rowD o d) eqn:ER; destruct C as (C & _); inv C; inv Q. eapply opr_rowD; eauto. }
  destruct (store_spec i_preds set_preds _ _ _ _ _ n Hj S4 E1) as (_ & C1).
  assert (Q1 : i_chain (w_inst w4) = i_chain (w_inst w3)).
  { destruct (i_preds (w_inst w3)); [destruct (o_rowD o d)|]; destruct C1 as (_ & C1); rewrite C1; repeat split. }
  rewrite <- Q1 in S5.
  destruct (store_spec i_chain set_chain _ _ _ _ _ n Hj S5 H4) as (_ & C).
  destruct (i_chain (w_inst w4)); [|destruct C; discriminate].
  destruct (o_rowV o x) eqn:ER; destruct C as (C & _); inv C. eapply opr_rowV; eauto.
Qed.

Lemma rec_arr_last_K (f : entry -> K) l0 (e : entry) old arr :
  rec_arr (fun k => Ok (o_rowK o k)) (map f (l0 ++ [e])) old (Some arr) ->
  py_index arr (Z.of_nat (List.length (l0 ++ [e])) - 1) = Ok (o_rowK o (f e)).
Proof.
  destruct old as [a0|]; simpl; [|tauto].
  intros (rows & HF & Hle & ->).
  pose proof (Forall2_length _ _ _ HF) as HL. rewrite map_length, app_length in *. simpl in *.
  rewrite (py_index_ok _ _ (o_zeroK o)).
  2:{ rewrite app_length, skipn_length. lia. }
  f_equal. rewrite app_nth1 by lia.
  replace (Z.to_nat (Z.of_nat (List.length l0 + 1) - 1)) with (List.length l0) by lia.
  rewrite map_app in HF. apply Forall2_app_inv_l in HF.
  destruct HF as (r1 & r2 & F1 & F2 & ->). simpl in F2. inv F2. inv H3. inv H1.
  rewrite app_nth2; rewrite <- (Forall2_length _ _ _ F1), map_length; [|lia].
  rewrite Nat.sub_diag. reflexivity.
Qed.

Lemma py_index_any {A} (a : list A) k n :
  (0 < n)%nat -> List.length a = n -> -1 <= k < Z.of_nat n -> exists x, py_index a k = Ok x.
Proof.
  intros Hn Hl Hk. destruct a as [|y a]; [simpl in *; lia|].
  destruct (Z.eq_dec k (-1)) as [->|].
  - exists (nth (List.length (y :: a) - Z.to_nat 1) (y :: a) y).
    change (-1) with (- (1)). apply py_index_neg. lia.
  - exists (nth (Z.to_nat k) (y :: a) y). apply py_index_ok. lia.
Qed.

Lemma print_saved_spec s0 l (w w' : world) out n :
  sized s0 n -> records o s0 (w_inst w) l -> (0 < n)%nat -> (List.length l <= n)%nat ->
  print_saved (Z.of_nat (List.length l)) w = (w', out) ->
  w_rng w' = w_rng w /\ same_tracked (w_inst w) (w_inst w') /\ keeps (w_inst w) (w_inst w') /\
  match out with
  | Ret _ => ~ untracked (w_inst w) /\
             exists ev, i_out (w_inst w') = i_out (w_inst w) ++ [ev] /\ progress_of s0 l ev
  | Exn e => e = AttributeError /\ untracked (w_inst w)
  | NoFuel => False
  end.
Proof.
  intros HS HR Hn Hl H.
  pose proof (records_sized _ _ _ _ _ HR HS) as HS'.
  destruct HR as (R1 & R2 & R3 & _ & _).
  destruct (print_saved_inv _ _ _ _ H) as
    [(lps & l2s & prs & lp & l2 & pr & E1 & E2 & E3 & I1 & I2 & I3 & -> & Hr & Hi)
    |(e & -> & -> & HA & HB)].
  - rewrite Hi. simpl. split; [exact Hr|]. split; [repeat split|]. split; [repeat split|].
    split; [unfold untracked; rewrite E1, E2, E3; intuition discriminate|].
    eexists. split; [reflexivity|]. split.
    { intros ->. simpl in R1, R2, R3, I1, I2, I3. 
      assert (ARR : forall (old : option (list K)) arr, rec_arr (fun k => Ok (o_rowK o k)) [] old (Some arr) -> old = Some arr).
      { clear. intros [a|] arr; simpl; [|tauto]. intros (rows & HF & _ & ->). inv HF. reflexivity. }
      rewrite E1 in R1. rewrite E2 in R2. rewrite E3 in R3.
      apply ARR in R1. apply ARR in R2. apply ARR in R3.
      assert (LAST : forall (a : list K) x, (0 < List.length a)%nat -> py_index a (-1) = Ok x -> nth_error a (List.length a - 1) = Some x).
      { clear. intros a x Hl Hx. destruct a as [|y a]; [simpl in Hl; lia|].
        change (-1) with (- (1)) in Hx. rewrite (py_index_neg _ _ y) in Hx by (simpl List.length; lia).
        inv Hx. rewrite (nth_error_nth' _ y) by (simpl; lia). reflexivity. }
      destruct HS as (z1 & z2 & z3 & _). rewrite R1 in z1. rewrite R2 in z2. rewrite R3 in z3. simpl in z1, z2, z3.
      exists lps, l2s, prs, lp, l2, pr. repeat (split; [first [assumption | apply LAST; [lia|assumption]]|]). reflexivity. }
    intros l0 e ->. rewrite E1 in R1. rewrite E2 in R2. rewrite E3 in R3.
    apply rec_arr_last_K in R1. apply rec_arr_last_K in R2. apply rec_arr_last_K in R3.
    rewrite R1 in I1. rewrite R2 in I2. rewrite R3 in I3. inv I1. inv I2. inv I3.
    f_equal. lia.
  - split; [reflexivity|]. split; [apply same_tracked_refl|]. split; [repeat split|].
    assert (e = AttributeError \/ e = IndexError) as [->| ->].
    { destruct e; auto; right; apply HB; discriminate. }
    { split; [reflexivity|]. unfold untracked. auto. }
    exfalso. destruct HS' as (L1 & L2 & L3 & _).
    destruct (i_logPi (w_inst w)) as [a1|] eqn:E1; [|unfold print_saved, read_attr, bind, get_inst in H; cbn in H; rewrite E1 in H; inv H].
    destruct (py_index_any a1 (Z.of_nat (List.length l) - 1) n Hn L1) as (x1 & X1); [lia|].
    destruct (i_L2s (w_inst w)) as [a2|] eqn:E2;
      [|unfold print_saved, read_attr, bind, get_inst in H; cbn in H; rewrite E1, X1 in H; cbn in H; rewrite E2 in H; inv H].
    destruct (py_index_any a2 (Z.of_nat (List.length l) - 1) n Hn L2) as (x2 & X2); [lia|].
    destruct (i_priors (w_inst w)) as [a3|] eqn:E3;
      [|unfold print_saved, read_attr, bind, get_inst in H; cbn in H; rewrite E1, X1 in H; cbn in H; rewrite E2, X2 in H; cbn in H; rewrite E3 in H; inv H].
    destruct (py_index_any a3 (Z.of_nat (List.length l) - 1) n Hn L3) as (x3 & X3); [lia|].
    unfold print_saved, read_attr, bind, get_inst in H; cbn in H; rewrite E1, X1 in H; cbn in H; rewrite E2, X2 in H; cbn in H; rewrite E3, X3 in H; discriminate H.
Qed.

(** the part of the body shared by MYULA and SKROCK: save if on the grid *)
Definition save_part (i j : Z) (x : V) (d : D) : @M V D K P G Z :=
  if grid_hit prm i then
    bind (lift (o_logpi o x d)) (fun t =>
      let '(logPi, L2, prior) := t in
      bind (tracking o j x d logPi L2 prior) (fun _ => ret (j + 1)))
  else ret j.

Lemma save_part_spec s0 l i j x d (w w' : world) out n :
  sized s0 n -> records o s0 (w_inst w) l -> j = Z.of_nat (List.length l) -> (List.length l < n)%nat ->
  p_nburn prm <= i ->
  save_part i j x d w = (w', out) ->
  w_rng w' = w_rng w /\ same_rest (w_inst w) (w_inst w') /\
  match out with
  | Ret j' => exists l1, saved_step i x d l l1 /\ j' = Z.of_nat (List.length l1) /\
                         records o s0 (w_inst w') l1 /\ (List.length l1 <= n)%nat
  | Exn e => op_raises e /\ crash_rec i s0 (w_inst w') l
  | NoFuel => False
  end.
Proof.
  intros HS HR -> Hl Hb H. unfold save_part in H. unfold saved_step, saves.
  apply Z.leb_le in Hb. rewrite Hb. simpl.
  pose proof (records_sized _ _ _ _ _ HR HS) as HS'.
  destruct (grid_hit prm i) eqn:Eg.
  2:{ inv H. split; [reflexivity|]. split; [repeat split|].
      exists l. split; [reflexivity|]. split; [reflexivity|]. split; [exact HR|lia]. }
  destruct (bind_inv _ _ _ _ _ H) as [(w1 & t & E1 & H1)|[(e1 & E1 & ->)|(E1 & ->)]].
  - destruct (lift_inv _ _ _ _ E1) as (-> & [(t' & E2 & E3)|(e & E2 & E3)]); inv E3.
    destruct t' as [[lp l2] pr].
    destruct (bind_inv _ _ _ _ _ H1) as [(w2 & [] & E3 & H2)|[(e1 & E3 & ->)|(E3 & ->)]].
    + destruct (tracking_spec o _ _ _ _ _ _ _ _ _ n (conj (Nat2Z.is_nonneg _) (proj1 (Nat2Z.inj_lt _ _) Hl)) HS' E3) as (Hr & Hs & HU).
      inv H2. split; [exact Hr|]. split; [exact Hs|].
      exists (l ++ [(x, d, (lp, l2, pr))]).
      split; [eauto|]. rewrite Nat2Z.id in HU.
      split; [rewrite app_length; simpl; lia|].
      split; [eapply records_upd; eauto|]. rewrite app_length; simpl; lia.
    + pose proof (tracking_exn _ _ _ _ _ _ _ _ _ n (conj (Nat2Z.is_nonneg _) (proj1 (Nat2Z.inj_lt _ _) Hl)) HS' E3) as HX.
      destruct (tracking_spec o _ _ _ _ _ _ _ _ _ n (conj (Nat2Z.is_nonneg _) (proj1 (Nat2Z.inj_lt _ _) Hl)) HS' E3) as (Hr & Hs & HU).
      split; [exact Hr|]. split; [exact Hs|]. split; [exact HX|].
      rewrite Nat2Z.id in HU. unfold crash_rec, saves. rewrite Hb, Eg. simpl. eapply records_maybe; eauto.
    + destruct (tracking_spec o _ _ _ _ _ _ _ _ _ n (conj (Nat2Z.is_nonneg _) (proj1 (Nat2Z.inj_lt _ _) Hl)) HS' E3) as (Hr & Hs & []).
  - destruct (lift_inv _ _ _ _ E1) as (-> & [(t' & E2 & E3)|(e & E2 & E3)]); inv E3.
    split; [reflexivity|]. split; [repeat split|]. split; [eapply opr_logpi; eauto|].
    apply crash_rec_of; exact HR.
  - destruct (lift_inv _ _ _ _ E1) as (-> & [(t' & E2 & E3)|(e & E2 & E3)]); inv E3.
Qed.

Definition exn_source (i : Z) (s : inst) (e : exn) : Prop :=
  op_raises e \/ (e = AttributeError /\ progress_due prm i = true /\ untracked s).

Lemma same_tracked_untracked s s' : same_tracked s s' -> untracked s' -> untracked s.
Proof. unfold same_tracked, untracked. intuition congruence. Qed.

Lemma rec_arr_none {A B} (cast : A -> res B) l old arr :
  rec_arr cast l old arr -> (old = None <-> arr = None).
Proof. destruct old, arr; simpl; try tauto; intros; split; intros; discriminate. Qed.

Lemma records_untracked s0 s l : records o s0 s l -> (untracked s0 <-> untracked s).
Proof.
  intros (A & B & C & _ & _). unfold untracked.
  apply rec_arr_none in A. apply rec_arr_none in B. apply rec_arr_none in C. tauto.
Qed.

Ltac bcase H w1 a E H1 :=
  let e := fresh "e" in
  destruct (bind_inv _ _ _ _ _ H) as [(w1 & a & E & H1)|[(e & E & ->)|(E & ->)]]; clear H.
Ltac lcase E a Q :=
  let e := fresh "e" in let E2 := fresh "QQ" in
  destruct (lift_inv _ _ _ _ E) as (-> & [(a & Q & E2)|(e & Q & E2)]); clear E; inversion E2; clear E2; try subst.
Ltac rcase E a QI Q :=
  let e := fresh "e" in let E2 := fresh "QQ" in
  destruct (with_rng_inv _ _ _ _ E) as (QI & [(a & Q & E2)|(e & Q & E2)]); clear E; inversion E2; clear E2; try subst.

Lemma myula_body_spec s0 l i j X d (w w' : world) out n :
  sized s0 n -> records o s0 (w_inst w) l -> j = Z.of_nat (List.length l) -> (List.length l < n)%nat ->
  myula_body o prm i j X d w = (w', out) ->
  keeps (w_inst w) (w_inst w') /\
  match out with
  | Ret (j', X', d') =>
      myula_trans o (i_delta (w_inst w)) (X, d, w_rng w) (X', d', w_rng w') /\
      exists l1 evs, saved_step i X' d' l l1 /\ j' = Z.of_nat (List.length l1) /\
        records o s0 (w_inst w') l1 /\ (List.length l1 <= n)%nat /\
        i_out (w_inst w') = i_out (w_inst w) ++ evs /\ myula_events s0 i l1 evs /\
        (progress_due prm i = true -> p_nburn prm <= i -> ~ untracked s0)
  | Exn e => crash_rec i s0 (w_inst w') l /\
      (op_raises e \/ (e = AttributeError /\ progress_due prm i = true /\ p_nburn prm <= i /\ untracked s0))
  | NoFuel => False
  end.
Proof.
  intros HS HR -> Hl H. unfold myula_body in H.
  pose proof (crash_rec_of i _ _ _ HR) as HT.
  bcase H w1 gr E H1.
  2:{ lcase E a Q. split; [repeat split|]. split; [exact HT|]. left. eapply opr_gradg; eauto. }
  2:{ lcase E a Q. }
  lcase E gr1 Qg. bcase H1 w1 p E H.
  2:{ lcase E a Q. split; [repeat split|]. split; [exact HT|]. left. eapply opr_proxf; eauto. }
  2:{ lcase E a Q. }
  lcase E p1 Qp. bcase H w1 s E H1. 2:{ discriminate E. } 2:{ discriminate E. }
  inversion E; clear E; subst w1 s. bcase H1 w2 X' E H.
  2:{ rcase E a QI Q. rewrite QI. split; [repeat split|]. split; [exact HT|]. left. eapply opr_step; eauto. }
  2:{ rcase E a QI Q. }
  rcase E X1 Q1 QS. bcase H w1 d' E H1.
  2:{ lcase E a Q. rewrite Q1. split; [repeat split|]. split; [exact HT|]. left. eapply opr_fwd; eauto. }
  2:{ lcase E a Q. }
  lcase E d1 QF. rename X1 into X'. rename d1 into d'. rename gr1 into gr. rename p1 into p. rename H1 into H0.
  assert (TR : myula_trans o (i_delta (w_inst w)) (X, d, w_rng w) (X', d', w_rng w2)).
  { exists gr, p. auto. }
  unfold myula_events.
  assert (HR2 : records o s0 (w_inst w2) l) by (rewrite Q1; exact HR).
  destruct (p_nburn prm <=? i) eqn:Eb.
  - pose proof Eb as Eb'. apply Z.leb_le in Eb'.
    change (bind (save_part i (Z.of_nat (List.length l)) X' d') (fun j' => bind (if progress_due prm i then print_saved j' else ret tt)
       (fun _ => ret (j', X', d'))) w2 = (w', out)) in H0.
    bcase H0 w3 j' E H.
    + destruct (save_part_spec s0 l i _ X' d' w2 w3 _ n HS HR2 eq_refl Hl Eb' E) as (Hr & Hsr & l1 & SS & -> & HR3 & Hle).
      bcase H w4 u E0 H0.
      * destruct (progress_due prm i) eqn:Ep.
        -- destruct (print_saved_spec s0 l1 _ _ _ n HS HR3 ltac:(lia) Hle E0) as (Hr' & Hst & Hk & Hnu & ev & Hev & Hpo).
           inv H0. split.
           { unfold keeps, same_rest in *. rewrite Q1 in *. intuition congruence. }
           split. { rewrite Hr', Hr. rewrite Q1 in *. exact TR. }
           exists l1, [ev]. split; [exact SS|]. split; [reflexivity|]. split; [eapply records_same; eauto|].
           split; [exact Hle|]. split. { rewrite Hev. destruct Hsr as (_ & _ & _ & ->). rewrite Q1. reflexivity. }
           split; [exists ev; auto|]. intros _ _ HU. apply Hnu. apply (records_untracked _ _ _ HR3). exact HU.
        -- inv E0. inv H0. split.
           { unfold keeps, same_rest in *. rewrite Q1 in *. intuition congruence. }
           split. { rewrite Hr. rewrite Q1 in *. exact TR. }
           exists l1, []. split; [exact SS|]. split; [reflexivity|]. split; [exact HR3|].
           split; [exact Hle|]. split; [|split; [reflexivity|discriminate]].
           rewrite app_nil_r. destruct Hsr as (_ & _ & _ & ->). rewrite Q1. reflexivity.
      * destruct (progress_due prm i) eqn:Ep; [|discriminate E0].
        destruct (print_saved_spec s0 l1 _ _ _ n HS HR3 ltac:(lia) Hle E0) as (Hr' & Hst & Hk & -> & Hu).
        split.
        { unfold keeps, same_rest in *. rewrite Q1 in *. intuition congruence. }
        split.
        { (* the completed row l1 is either l or l plus one more *)
          unfold saved_step in SS. unfold crash_rec. destruct (saves i).
          - destruct SS as (t & _ & ->). 
            assert (HR4 : records o s0 (w_inst w') (l ++ [(X', d', t)])) by (eapply records_same; eauto).
            clear -HR4 Hl HS. destruct HR4 as (A & B & C & E & F). destruct HS as (a & b & c & e & f).
            assert (GEN : forall A B (cast : A -> res B) l x old arr, rec_arr cast (l ++ [x]) old arr ->
                          rec_or_torn cast l old arr).
            { clear. intros A B cast l x old arr H. right. destruct old as [a0|], arr as [a|]; simpl in *; try tauto.
              destruct H as (rows & HF & Hle & ->). apply Forall2_app_inv_l in HF.
              destruct HF as (r1 & r2 & F1 & F2 & ->). inv F2. inv H3.
              rewrite app_length in *. simpl in *. exists r1, y. split; [exact F1|]. split; [lia|].
              rewrite <- app_assoc. reflexivity. }
            rewrite map_app in *. simpl in *. repeat split; eapply GEN; eauto.
          - subst l1. eapply records_same; eauto. }
        right. repeat (split; auto). apply (records_untracked _ _ _ HR3). exact Hu.
      * destruct (progress_due prm i) eqn:Ep; [|discriminate E0].
        destruct (print_saved_spec s0 l1 _ _ _ n HS HR3 ltac:(lia) Hle E0) as (Hr' & Hst & Hk & []).
    + destruct (save_part_spec s0 l i _ X' d' w2 w' _ n HS HR2 eq_refl Hl Eb' E) as (Hr & Hsr & HX & HT').
      split. { unfold keeps, same_rest in *. rewrite Q1 in *. intuition congruence. }
      split; [exact HT'|]. left; exact HX.
    + destruct (save_part_spec s0 l i _ X' d' w2 w' _ n HS HR2 eq_refl Hl Eb' E) as (Hr & Hsr & []).
  - assert (SN : saved_step i X' d' l l).
    { unfold saved_step, saves. rewrite Eb. reflexivity. }
    assert (NB : ~ p_nburn prm <= i) by (intros HH; apply Z.leb_le in HH; congruence).
    bcase H0 w3 u E H.
    + destruct (progress_due prm i) eqn:Ep.
      * destruct (print_inv _ _ _ _ E) as (Q4 & Hr & Hi). inv H. rewrite Hi. simpl. rewrite Q1.
        split; [repeat split|]. split. { rewrite Hr. exact TR. }
        exists l, [EvBurning]. split; [exact SN|]. split; [reflexivity|]. split; [exact HR|]. split; [lia|]. split; [reflexivity|]. split; [reflexivity|tauto].
      * inv E. inv H. rewrite Q1. split; [repeat split|]. split; [exact TR|].
        exists l, []. rewrite app_nil_r. split; [exact SN|]. split; [reflexivity|]. split; [exact HR|]. split; [lia|]. split; [reflexivity|]. split; [reflexivity|discriminate].
    + destruct (progress_due prm i); [|discriminate E].
      destruct (print_inv _ _ _ _ E) as (Q4 & _). discriminate.
    + destruct (progress_due prm i); [|discriminate E].
      destruct (print_inv _ _ _ _ E) as (Q4 & _). discriminate.
Qed.

Lemma skrock_body_spec s0 l i j X d (w w' : world) out n :
  sized s0 n -> records o s0 (w_inst w) l -> j = Z.of_nat (List.length l) -> (List.length l < n)%nat ->
  skrock_body o prm i j X d w = (w', out) ->
  keeps (w_inst w) (w_inst w') /\
  match out with
  | Ret (j', X', d') =>
      skrock_trans o (i_delta (w_inst w)) (X, d, w_rng w) (X', d', w_rng w') /\
      exists l1 evs, saved_step i X' d' l l1 /\ j' = Z.of_nat (List.length l1) /\
        records o s0 (w_inst w') l1 /\ (List.length l1 <= n)%nat /\
        i_out (w_inst w') = i_out (w_inst w) ++ evs /\ skrock_events s0 i l1 evs /\
        (progress_due prm i = true -> ~ untracked s0)
  | Exn e => crash_rec i s0 (w_inst w') l /\
      (op_raises e \/ (e = AttributeError /\ progress_due prm i = true /\ untracked s0))
  | NoFuel => False
  end.
Proof.
  intros HS HR -> Hl H. unfold skrock_body in H.
  pose proof (crash_rec_of i _ _ _ HR) as HT.
  bcase H w1 s E H1. 2:{ discriminate E. } 2:{ discriminate E. }
  inversion E; clear E; subst w1 s. bcase H1 w2 X' E H.
  2:{ rcase E a QI Q. rewrite QI. split; [repeat split|]. split; [exact HT|]. left. eapply opr_skstep; eauto. }
  2:{ rcase E a QI Q. }
  rcase E X1 Q QS. bcase H w1 d' E H1.
  2:{ lcase E a Qf. rewrite Q. split; [repeat split|]. split; [exact HT|]. left. eapply opr_fwd; eauto. }
  2:{ lcase E a Qf. }
  lcase E d1 QF. rename X1 into X'. rename d1 into d'. rename H1 into H0.
  assert (TR : skrock_trans o (i_delta (w_inst w)) (X, d, w_rng w) (X', d', w_rng w2)).
  { split; auto. }
  unfold skrock_events.
  assert (HR2 : records o s0 (w_inst w2) l) by (rewrite Q; exact HR).
  change (bind (if p_nburn prm <=? i then save_part i (Z.of_nat (List.length l)) X' d' else ret (Z.of_nat (List.length l)))
     (fun j' => bind (if progress_due prm i then print_saved j' else ret tt)
       (fun _ => ret (j', X', d'))) w2 = (w', out)) in H0.
  assert (SAVE : forall w3 out3, (if p_nburn prm <=? i then save_part i (Z.of_nat (List.length l)) X' d' else ret (Z.of_nat (List.length l))) w2 = (w3, out3) ->
    w_rng w3 = w_rng w2 /\ same_rest (w_inst w2) (w_inst w3) /\
    match out3 with
    | Ret j' => exists l1, saved_step i X' d' l l1 /\ j' = Z.of_nat (List.length l1) /\
                         records o s0 (w_inst w3) l1 /\ (List.length l1 <= n)%nat
    | Exn e => op_raises e /\ crash_rec i s0 (w_inst w3) l
    | NoFuel => False
    end).
  { intros w3 out3 HH. destruct (p_nburn prm <=? i) eqn:Eb.
    - apply Z.leb_le in Eb. eapply save_part_spec; eauto.
    - inv HH. split; [reflexivity|]. split; [repeat split|]. exists l.
      split. { unfold saved_step, saves. rewrite Eb. reflexivity. }
      split; [reflexivity|]. split; [exact HR2|lia]. }
  bcase H0 w3 j' E H.
  - destruct (SAVE _ _ E) as (Hr & Hsr & l1 & SS & -> & HR3 & Hle).
    bcase H w4 u E0 H0.
    + destruct (progress_due prm i) eqn:Ep.
      * destruct (print_saved_spec s0 l1 _ _ _ n HS HR3 ltac:(lia) Hle E0) as (Hr' & Hst & Hk & Hnu & ev & Hev & Hpo).
        inv H0. split.
        { unfold keeps, same_rest in *. rewrite Q in *. intuition congruence. }
        split. { rewrite Hr', Hr. rewrite Q in *. exact TR. }
        exists l1, [ev]. split; [exact SS|]. split; [reflexivity|]. split; [eapply records_same; eauto|].
        split; [exact Hle|]. split. { rewrite Hev. destruct Hsr as (_ & _ & _ & ->). rewrite Q. reflexivity. }
        split; [exists ev; auto|]. intros _ HU. apply Hnu. apply (records_untracked _ _ _ HR3). exact HU.
      * inv E0. inv H0. split.
        { unfold keeps, same_rest in *. rewrite Q in *. intuition congruence. }
        split. { rewrite Hr. rewrite Q in *. exact TR. }
        exists l1, []. split; [exact SS|]. split; [reflexivity|]. split; [exact HR3|].
        split; [exact Hle|]. split; [|split; [reflexivity|discriminate]].
        rewrite app_nil_r. destruct Hsr as (_ & _ & _ & ->). rewrite Q. reflexivity.
    + destruct (progress_due prm i) eqn:Ep; [|discriminate E0].
      destruct (print_saved_spec s0 l1 _ _ _ n HS HR3 ltac:(lia) Hle E0) as (Hr' & Hst & Hk & -> & Hu).
      split.
      { unfold keeps, same_rest in *. rewrite Q in *. intuition congruence. }
      split.
      { unfold saved_step in SS. unfold crash_rec. destruct (saves i).
        - destruct SS as (t & _ & ->). 
          assert (HR4 : records o s0 (w_inst w') (l ++ [(X', d', t)])) by (eapply records_same; eauto).
          clear -HR4 Hl HS. destruct HR4 as (A & B & C & E & F). destruct HS as (a & b & c & e & f).
          assert (GEN : forall A B (cast : A -> res B) l x old arr, rec_arr cast (l ++ [x]) old arr ->
                        rec_or_torn cast l old arr).
          { clear. intros A B cast l x old arr H. right. destruct old as [a0|], arr as [a|]; simpl in *; try tauto.
            destruct H as (rows & HF & Hle & ->). apply Forall2_app_inv_l in HF.
            destruct HF as (r1 & r2 & F1 & F2 & ->). inv F2. inv H3.
            rewrite app_length in *. simpl in *. exists r1, y. split; [exact F1|]. split; [lia|].
            rewrite <- app_assoc. reflexivity. }
          rewrite map_app in *. simpl in *. repeat split; eapply GEN; eauto.
        - subst l1. eapply records_same; eauto. }
      right. repeat (split; auto). apply (records_untracked _ _ _ HR3). exact Hu.
    + destruct (progress_due prm i) eqn:Ep; [|discriminate E0].
      destruct (print_saved_spec s0 l1 _ _ _ n HS HR3 ltac:(lia) Hle E0) as (Hr' & Hst & Hk & []).
  - destruct (SAVE _ _ E) as (Hr & Hsr & HX & HT').
    split. { unfold keeps, same_rest in *. rewrite Q in *. intuition congruence. }
    split; [exact HT'|]. left; exact HX.
  - destruct (SAVE _ _ E) as (Hr & Hsr & []).
Qed.

End Myula.
