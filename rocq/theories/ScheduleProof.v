(** Closed forms of the save schedule and the theorems of MYULA/SKROCK. *)
From Coq Require Import List ZArith Lia Bool String.
From Verif Require Import PyBase PyBaseFacts Sampler SamplerSpec SamplerFacts MyulaProof LoopProof.
Import ListNotations.
Open Scope Z_scope.

Lemma stride_pos g : 0 < stride g.
Proof. unfold stride. destruct (g =? 0) eqn:E; lia. Qed.

Lemma saves_iff prm i : 0 <= i ->
  (saves prm i = true <-> exists j : nat, i = save_iter (p_nburn prm) (p_ngap prm) j).
Proof.
  intros Hi. unfold saves, grid_hit, save_iter, first_save.
  pose proof (stride_pos (p_ngap prm)) as HP.
  set (b := p_nburn prm). set (g := p_ngap prm) in *.
  assert (DIV : (g =? 0) || ((i - b) mod g =? 0) = true <-> exists k, i - b = k * stride g).
  { unfold stride. destruct (g =? 0) eqn:E; simpl.
    - split; auto. intros _. exists (i - b). lia.
    - apply Z.eqb_neq in E. rewrite Z.eqb_eq. rewrite Z.mod_divide by assumption.
      split; intros (k & Hk).
      + exists (k * Z.sgn g). rewrite Hk. rewrite <- Z.mul_assoc. f_equal. clear. destruct g; simpl; lia.
      + exists (k * Z.sgn g). rewrite Hk. rewrite <- Z.mul_assoc. f_equal. clear. destruct g; simpl; lia. }
  rewrite andb_true_iff, DIV, Z.leb_le.
  destruct (b <? 0) eqn:EB.
  - apply Z.ltb_lt in EB. pose proof (Z.mod_pos_bound b _ HP) as HM.
    pose proof (Z.div_mod b (stride g) ltac:(lia)) as HD.
    split.
    + intros (_ & k & Hk).
      exists (Z.to_nat (k + b / stride g)). rewrite Z2Nat.id; nia.
    + intros (j & Hj). split; [lia|]. exists (Z.of_nat j - b / stride g). nia.
  - apply Z.ltb_ge in EB. split.
    + intros (Hb & k & Hk). exists (Z.to_nat k). rewrite Z2Nat.id; nia.
    + intros (j & Hj). split; [nia|]. exists (Z.of_nat j). lia.
Qed.

Lemma save_iter_nonneg b g j : 0 <= save_iter b g j.
Proof.
  unfold save_iter, first_save. pose proof (stride_pos g) as HP.
  destruct (b <? 0) eqn:E.
  - pose proof (Z.mod_pos_bound b _ HP). nia.
  - apply Z.ltb_ge in E. nia.
Qed.

Lemma save_iter_lt b g j k : (j < k)%nat -> save_iter b g j < save_iter b g k.
Proof. unfold save_iter. pose proof (stride_pos g) as HP. nia. Qed.

Lemma save_iter_inj b g j k : save_iter b g j = save_iter b g k -> j = k.
Proof.
  intros H. destruct (lt_eq_lt_dec j k) as [[C|C]|C]; auto;
    apply (save_iter_lt b g) in C; lia.
Qed.

Lemma saved_idx_snoc prm n : forall i,
  saved_idx prm i (S n) = saved_idx prm i n ++ (if saves prm (i + Z.of_nat n) then [n] else []).
Proof.
  induction n as [|n IH]; intros i.
  - simpl. rewrite Z.add_0_r, app_nil_r. reflexivity.
  - change (saved_idx prm i (S (S n))) with ((if saves prm i then [O] else []) ++ map S (saved_idx prm (i + 1) (S n))).
    rewrite IH. simpl saved_idx. rewrite map_app, app_assoc. f_equal.
    replace (i + 1 + Z.of_nat n) with (i + Z.of_nat (S n)) by lia.
    destruct (saves prm _); reflexivity.
Qed.

Lemma saved_idx_closed prm n :
  let f := fun j => Z.to_nat (save_iter (p_nburn prm) (p_ngap prm) j) in
  let m := List.length (saved_idx prm 0 n) in
  saved_idx prm 0 n = map f (seq 0 m) /\
  (n <= f m)%nat /\ (forall j, (j < m)%nat -> (f j < n)%nat).
Proof.
  set (f := fun j => Z.to_nat (save_iter (p_nburn prm) (p_ngap prm) j)).
  cbv zeta. induction n as [|n (IH1 & IH2 & IH3)].
  - simpl. repeat split; lia.
  - rewrite saved_idx_snoc. rewrite Z.add_0_l.
    set (m := List.length (saved_idx prm 0 n)) in *.
    assert (FI : forall j, Z.of_nat (f j) = save_iter (p_nburn prm) (p_ngap prm) j).
    { intros j. unfold f. apply Z2Nat.id, save_iter_nonneg. }
    assert (MONO : forall j k, (j < k)%nat -> (f j < f k)%nat).
    { intros j k Hjk. apply (save_iter_lt (p_nburn prm) (p_ngap prm)) in Hjk. rewrite <- !FI in Hjk. lia. }
    assert (EQ : saves prm (Z.of_nat n) = true <-> n = f m).
    { rewrite saves_iff by lia. split.
      - intros (j & Hj). rewrite <- FI in Hj. apply Nat2Z.inj in Hj.
        destruct (lt_eq_lt_dec j m) as [[C|C]|C].
        + apply IH3 in C. lia.
        + congruence.
        + apply MONO in C. lia.
      - intros E. exists m. rewrite <- FI. congruence. }
    destruct (saves prm (Z.of_nat n)) eqn:ES.
    + assert (n = f m) as En by (apply EQ; reflexivity).
      rewrite app_length. simpl List.length. fold m.
      replace (m + 1)%nat with (S m) by lia. rewrite seq_S, map_app. simpl.
      rewrite <- En, <- IH1. split; [reflexivity|].
      split. { specialize (MONO m (S m)). lia. }
      intros j Hj. destruct (Nat.eq_dec j m) as [->|]; [lia|].
      specialize (IH3 j). lia.
    + assert (n <> f m) as En by (intros E; apply EQ in E; discriminate).
      rewrite app_nil_r. fold m. split; [exact IH1|]. split; [lia|].
      intros j Hj. specialize (IH3 j Hj). lia.
Qed.

Lemma Forall2_nth_error {A B} (R : A -> B -> Prop) l m :
  Forall2 R l m -> forall k a b, nth_error l k = Some a -> nth_error m k = Some b -> R a b.
Proof.
  induction 1; intros [|k] a b; simpl; try discriminate.
  - intros E1 E2. inv E1. inv E2. assumption.
  - apply IHForall2.
Qed.

Lemma nth_error_map_seq {A} (f : nat -> A) m j : (j < m)%nat -> nth_error (map f (seq 0 m)) j = Some (f j).
Proof.
  intros H. rewrite nth_error_map, (nth_error_nth' _ 0%nat); [|rewrite seq_length; exact H].
  rewrite seq_nth by exact H. reflexivity.
Qed.

Section Sched.
Context {V D K P G I : Type}.
Variable o : ops V D K P G I.
Variable prm : params.
Notation inst := (inst V D K P).
Notation world := (world V D K P G).
Notation entry := (entry V D K).
Notation cstate := (cstate V D G).
Notation iter := (save_iter (p_nburn prm) (p_ngap prm)).

Variable trans : P -> cstate -> cstate -> Prop.
Variable evspec : inst -> Z -> list entry -> list (event K) -> Prop.

(** printed lines of a run that finished, iteration by iteration *)
Definition out_spec (w w' : world) (l : list entry) (n : nat) : Prop :=
  exists groups,
    i_out (w_inst w') = i_out (w_inst w) ++ List.concat groups ++ [EvDone] /\
    List.length groups = total_iters (p_nburn prm) (p_ngap prm) n /\
    forall k, (k < List.length groups)%nat ->
      exists ev, nth_error groups k = Some ev /\
        evspec (w_inst w) (Z.of_nat k) (firstn (List.length (saved_idx prm 0 (S k))) l) ev.

(** entry [e] is the visited state number [k] (0-based) *)
Definition saved_at (tr : list cstate) (j : nat) (e : entry) : Prop :=
  entry_ok o e /\
  exists st, nth_error tr (Z.to_nat (iter j)) = Some st /\ of_state st e.

Lemma picks_closed (tr : list cstate) l :
  Forall2 (picks o tr) (saved_idx prm 0 (List.length tr)) l ->
  (forall j e, nth_error l j = Some e -> saved_at tr j e) /\
  (List.length tr <= Z.to_nat (iter (List.length l)))%nat /\
  (forall j, (j < List.length l)%nat -> (Z.to_nat (iter j) < List.length tr)%nat).
Proof.
  intros HF. destruct (saved_idx_closed prm (List.length tr)) as (E & A & B).
  pose proof (Forall2_length _ _ _ HF) as HL. rewrite HL in *.
  split; [|split; assumption].
  intros j e Hj.
  assert (Hlt : (j < List.length l)%nat) by (apply nth_error_Some; congruence).
  rewrite E in HF.
  apply (Forall2_nth_error _ _ _ HF j _ e); [|exact Hj].
  exact (nth_error_map_seq (fun j => Z.to_nat (iter j)) _ _ Hlt).
Qed.

Lemma row_of_rec {A B} (cast : A -> res B) l old arr j x :
  rec_arr cast l old arr -> nth_error l j = Some x -> row_is arr j (cast x).
Proof.
  destruct old as [a0|], arr as [a|]; simpl; try tauto.
  intros (rows & HF & Hle & ->) Hj.
  pose proof (Forall2_length _ _ _ HF) as HL.
  assert (j < List.length l)%nat by (apply nth_error_Some; congruence).
  destruct (nth_error rows j) as [r|] eqn:E.
  2:{ apply nth_error_None in E. lia. }
  exists r. split.
  - rewrite nth_error_app1 by lia. exact E.
  - exact (Forall2_nth_error _ _ _ HF _ _ _ Hj E).
Qed.

Lemma row_of_torn {A B} (cast : A -> res B) l old arr j x :
  rec_or_torn cast l old arr -> nth_error l j = Some x -> row_is arr j (cast x).
Proof.
  intros [H|H]; [eapply row_of_rec; eauto|revert H].
  destruct old as [a0|], arr as [a|]; simpl; try tauto.
  intros (rows & v & HF & Hle & ->) Hj.
  pose proof (Forall2_length _ _ _ HF) as HL.
  assert (j < List.length l)%nat by (apply nth_error_Some; congruence).
  destruct (nth_error rows j) as [r|] eqn:E.
  2:{ apply nth_error_None in E. lia. }
  exists r. split.
  - rewrite nth_error_app1 by lia. exact E.
  - exact (Forall2_nth_error _ _ _ HF _ _ _ Hj E).
Qed.

Lemma records_torn_row s0 s l j x d t :
  records_torn o s0 s l -> nth_error l j = Some (x, d, t) -> row_describes o s j x d t.
Proof.
  intros (A & B & C & E & F) Hj. destruct t as [[lp l2] pr].
  assert (N : forall T (f : entry -> T), nth_error (map f l) j = Some (f (x, d, (lp, l2, pr)))).
  { intros. rewrite nth_error_map, Hj. reflexivity. }
  repeat split.
  - exact (row_of_torn _ _ _ _ _ _ A (N _ _)).
  - exact (row_of_torn _ _ _ _ _ _ B (N _ _)).
  - exact (row_of_torn _ _ _ _ _ _ C (N _ _)).
  - exact (row_of_torn _ _ _ _ _ _ E (N _ _)).
  - exact (row_of_torn _ _ _ _ _ _ F (N _ _)).
Qed.

(** Full description of a terminating run. *)
Definition complete_run (start : I) (w w' : world) (n : nat) : Prop :=
  exists s tr l,
    starts o start (w_rng w) s /\
    path (trans (i_delta (w_inst w))) s tr /\
    List.length tr = total_iters (p_nburn prm) (p_ngap prm) n /\
    w_rng w' = snd (last tr s) /\
    List.length l = n /\
    records o (w_inst w) (w_inst w') l /\
    (forall j e, nth_error l j = Some e -> saved_at tr j e) /\
    out_spec w w' l n.

(** A run cut off after [k] iterations, or by an exception. *)
Definition partial_run (recs : inst -> inst -> list entry -> Prop) (start : I) (w w' : world) (k n : nat) : Prop :=
  exists s tr l,
    starts o start (w_rng w) s /\
    path (trans (i_delta (w_inst w))) s tr /\
    List.length tr = k /\
    (List.length l < n)%nat /\ (k <= Z.to_nat (iter (List.length l)))%nat /\
    recs (w_inst w) (w_inst w') l /\
    (forall j e, nth_error l j = Some e -> saved_at tr j e).

Definition run_spec (reads : Z -> Prop) (fuel : nat) (start : I) (w w' : world) (out : outcome unit) (n : nat) : Prop :=
  keeps (w_inst w) (w_inst w') /\
  match out with
  | Ret _ => complete_run start w w' n /\ (total_iters (p_nburn prm) (p_ngap prm) n <= fuel)%nat /\
             (forall i, 0 <= i < Z.of_nat (total_iters (p_nburn prm) (p_ngap prm) n) -> reads i -> ~ untracked (w_inst w))
  | NoFuel => partial_run (records o) start w w' fuel n /\
             (forall i, 0 <= i < Z.of_nat fuel -> reads i -> ~ untracked (w_inst w))
  | Exn e =>
      (* either the start was rejected: nothing was recorded *)
      (same_tracked (w_inst w) (w_inst w') /\ op_raises o e /\
       (exists g', o_init o start (w_rng w) = (Raise e, g')) \/
       (same_tracked (w_inst w) (w_inst w') /\
        exists x g', o_init o start (w_rng w) = (Ok x, g') /\ o_forward o x = Raise e) \/
      (* or iteration k failed *)
       exists k, (k < fuel)%nat /\ partial_run (crash_rec o prm (Z.of_nat k)) start w w' k n /\
         (op_raises o e \/ (e = AttributeError /\ reads (Z.of_nat k) /\ untracked (w_inst w))))
  end.

Variable body : Z -> Z -> V -> D -> @M V D K P G (Z * V * D).
Variable reads : Z -> Prop.
Hypothesis HB : body_ok o prm body trans evspec reads.

Definition gen_run (fuel : nat) (start : I) : @M V D K P G unit :=
  bind (initial_sample o start) (fun r => let '(X, d) := r in gen_loop prm body fuel 0 0 X d).

Lemma initial_sample_inv start (w w' : world) out :
  initial_sample o start w = (w', out) ->
  w_inst w' = w_inst w /\
  match out with
  | Ret (X, d) => starts o start (w_rng w) (X, d, w_rng w')
  | Exn e => (o_init o start (w_rng w) = (Raise e, w_rng w')) \/
             (exists x, o_init o start (w_rng w) = (Ok x, w_rng w') /\ o_forward o x = Raise e)
  | NoFuel => False
  end.
Proof.
  unfold initial_sample. intros H.
  destruct (bind_inv _ _ _ _ _ H) as [(w1 & X & E & H1)|[(e & E & ->)|(E & ->)]]; clear H.
  - destruct (with_rng_inv _ _ _ _ E) as (Q & [(a & Q1 & Q2)|(e & Q1 & Q2)]); inv Q2.
    destruct (bind_inv _ _ _ _ _ H1) as [(w2 & d & E2 & H2)|[(e & E2 & ->)|(E2 & ->)]]; clear H1.
    + destruct (lift_inv _ _ _ _ E2) as (-> & [(d' & Q3 & Q4)|(e & Q3 & Q4)]); inv Q4.
      inv H2. split; [exact Q|]. split; assumption.
    + destruct (lift_inv _ _ _ _ E2) as (-> & [(d' & Q3 & Q4)|(e' & Q3 & Q4)]); inv Q4.
      split; [exact Q|]. right. eauto.
    + destruct (lift_inv _ _ _ _ E2) as (-> & [(d' & Q3 & Q4)|(e' & Q3 & Q4)]); inv Q4.
  - destruct (with_rng_inv _ _ _ _ E) as (Q & [(a & Q1 & Q2)|(e' & Q1 & Q2)]); inv Q2.
    split; [exact Q|]. left. exact Q1.
  - destruct (with_rng_inv _ _ _ _ E) as (Q & [(a & Q1 & Q2)|(e' & Q1 & Q2)]); inv Q2.
Qed.

Lemma gen_run_spec fuel start (w w' : world) out n :
  sized (w_inst w) n -> p_nsamples prm = Z.of_nat n ->
  gen_run fuel start w = (w', out) ->
  run_spec reads fuel start w w' out n.
Proof.
  intros HS HN H. unfold gen_run in H.
  destruct (bind_inv _ _ _ _ _ H) as [(w1 & [X d] & E & H1)|[(e & E & ->)|(E & ->)]]; clear H.
  - destruct (initial_sample_inv _ _ _ _ E) as (Hi & Hst).
    pose proof (records_nil o (w_inst w)) as HR.
    rewrite <- Hi in HR at 2.
    destruct (gen_loop_spec o prm body trans evspec reads HB (w_inst w) n HS HN fuel 0 X d w1 w' out []
                HR (Nat.le_0_l _) H1) as (tr & l & evs & HH & Hlen & Hk & HU & HO).
    rewrite Hi in HH, Hk.
    destruct (hist_saved _ _ _ _ _ _ _ _ _ _ _ _ _ HH) as (l' & El & HF). simpl in El. subst l'.
    pose proof (hist_path _ _ _ _ _ _ _ _ _ _ _ _ _ HH) as HP.
    destruct (picks_closed _ _ HF) as (PA & PB & PC).
    split; [exact Hk|]. destruct out as [[]|e|].
    + destruct HO as (A & B & C & R).
      assert (LT : List.length tr = total_iters (p_nburn prm) (p_ngap prm) n).
      { destruct tr as [|st tr0].
        - inv HH. reflexivity.
        - destruct (hist_minimal _ _ _ _ _ _ _ _ _ _ _ _ _ HH ltac:(discriminate) A) as (i' & tr' & Et & Ei & Es).
          assert (Hlt : List.length (st :: tr0) = S (List.length tr')).
          { rewrite Et, app_length. simpl. lia. }
          rewrite saves_iff in Es by lia. destruct Es as (j & Ej).
          rewrite A in PB, PC. rewrite Hlt in *.
          assert (n <> 0)%nat.
          { intros ->. destruct l; [|discriminate A]. inv HH. lia. }
          destruct n as [|m]; [congruence|]. simpl total_iters.
          assert (j = m).
          { assert (Z.of_nat (List.length tr') = iter j) as Ej' by lia.
            pose proof (PC m ltac:(lia)) as P1.
            pose proof (save_iter_nonneg (p_nburn prm) (p_ngap prm) m).
            pose proof (save_iter_nonneg (p_nburn prm) (p_ngap prm) (S m)).
            destruct (lt_eq_lt_dec j m) as [[C1|C1]|C1]; [|exact C1|].
            - apply (save_iter_lt (p_nburn prm) (p_ngap prm)) in C1. lia.
            - destruct (Nat.eq_dec j (S m)) as [->|].
              + lia.
              + assert (S m < j)%nat as C2 by lia. apply (save_iter_lt (p_nburn prm) (p_ngap prm)) in C2. lia. }
          subst j. lia. }
      split; [|split].
      * exists (X, d, w_rng w1), tr, l.
        repeat (split; [assumption|]).
        destruct (hist_events _ _ _ _ _ _ _ _ _ _ _ _ _ HH) as (gr & -> & G1 & G2).
        exists gr. rewrite C, Hi. split; [reflexivity|]. split; [congruence|].
        intros k Hk'. rewrite G1 in Hk'. exact (G2 k Hk').
      * lia.
      * intros i Hi' Hrd. rewrite <- LT in Hi'.
        apply (HU (Z.to_nat i)); [lia|]. rewrite Z2Nat.id by lia. exact Hrd.
    + right. right. destruct HO as (A & B & C & R).
      exists (List.length tr). split; [lia|]. split; [|exact R].
      exists (X, d, w_rng w1), tr, l. auto 10.
    + destruct HO as (A & B & C & R1 & R2). split.
      * exists (X, d, w_rng w1), tr, l. rewrite B in PB. auto 10.
      * intros i Hi' Hrd. rewrite <- B in Hi'.
        apply (HU (Z.to_nat i)); [lia|]. rewrite Z2Nat.id by lia. exact Hrd.
  - destruct (initial_sample_inv _ _ _ _ E) as (Hi & Hst). unfold run_spec. rewrite Hi.
    split; [repeat split|].
    destruct Hst as [H1|(x & H1 & H2)].
    + left. split; [apply same_tracked_refl|]. split; [eapply opr_init; eauto|]. eauto.
    + right. left. split; [apply same_tracked_refl|]. eauto.
  - destruct (initial_sample_inv _ _ _ _ E) as (_ & []).
Qed.

End Sched.

Lemma save_iter_on_grid nburn ngap i : 0 <= i ->
  (exists j, i = save_iter nburn ngap j) <-> on_grid nburn ngap i.
Proof.
  intros Hi. pose proof (stride_pos ngap) as HP. unfold save_iter, first_save, on_grid.
  assert (HG : forall k, (exists q, k = q * stride ngap) <-> (ngap = 0 \/ exists q, k = q * ngap)).
  { intros k. unfold stride. destruct (Z.eqb_spec ngap 0) as [->|Hn].
    - split; [left; reflexivity|]. intros _. exists k. lia.
    - split.
      + intros (q & ->). right. destruct (Z.abs_spec ngap) as [(_ & ->)|(_ & ->)]; [exists q; reflexivity|exists (- q); lia].
      + intros [?|(q & ->)]; [contradiction|].
        destruct (Z.abs_spec ngap) as [(_ & ->)|(_ & ->)]; [exists q; reflexivity|exists (- q); lia]. }
  rewrite <- HG. destruct (Z.ltb_spec nburn 0) as [Hb|Hb].
  - pose proof (Z.div_mod nburn (stride ngap) ltac:(lia)) as DM.
    pose proof (Z.mod_pos_bound nburn (stride ngap) HP) as MB.
    split.
    + intros (j & ->). split; [lia|]. exists (Z.of_nat j - nburn / stride ngap). nia.
    + intros (Hn & q & Hq). exists (Z.to_nat (q + nburn / stride ngap)). rewrite Z2Nat.id; nia.
  - split.
    + intros (j & ->). split; [nia|]. exists (Z.of_nat j). lia.
    + intros (Hn & q & Hq). exists (Z.to_nat q). rewrite Z2Nat.id; nia.
Qed.
