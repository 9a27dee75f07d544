(** Loop-level invariant shared by MYULA.run and SKROCK.run. *)
From Coq Require Import List ZArith Lia Bool String.
From Verif Require Import PyBase PyBaseFacts Sampler SamplerSpec SamplerFacts MyulaProof.
Import ListNotations.
Open Scope Z_scope.

Section Loop.
Context {V D K P G I : Type}.
Variable o : ops V D K P G I.
Variable prm : params.
Notation inst := (inst V D K P).
Notation world := (world V D K P G).
Notation entry := (entry V D K).
Notation cstate := (cstate V D G).

Variable body : Z -> Z -> V -> D -> @M V D K P G (Z * V * D).
Variable trans : P -> cstate -> cstate -> Prop.
Variable evspec : inst -> Z -> list entry -> list (event K) -> Prop.
(** iterations that read the tracked arrays in order to print *)
Variable reads : Z -> Prop.

Definition body_ok : Prop := forall s0 l i X d (w w' : world) out n,
  sized s0 n -> records o s0 (w_inst w) l -> (List.length l < n)%nat ->
  body i (Z.of_nat (List.length l)) X d w = (w', out) ->
  keeps (w_inst w) (w_inst w') /\
  match out with
  | Ret (j', X', d') =>
      trans (i_delta (w_inst w)) (X, d, w_rng w) (X', d', w_rng w') /\
      exists l1 evs, saved_step o prm i X' d' l l1 /\ j' = Z.of_nat (List.length l1) /\
        records o s0 (w_inst w') l1 /\ (List.length l1 <= n)%nat /\
        i_out (w_inst w') = i_out (w_inst w) ++ evs /\ evspec s0 i l1 evs /\
        (reads i -> ~ untracked s0)
  | Exn e => crash_rec o prm i s0 (w_inst w') l /\
      (op_raises o e \/ (e = AttributeError /\ reads i /\ untracked s0))
  | NoFuel => False
  end.

Fixpoint gen_loop (fuel : nat) (i j : Z) (X : V) (d : D) : @M V D K P G unit :=
  if j <? p_nsamples prm then
    match fuel with
    | O => no_fuel
    | S f => bind (body i j X d) (fun r =>
               let '(j', X', d') := r in gen_loop f (i + 1) j' X' d')
    end
  else print EvDone.

(** History of a loop, without the storage: iteration number, state and entries
    saved before; states visited, entries saved at the end, lines printed. *)
Inductive hist (s0 : inst) (N : nat) (delta : P) : Z -> cstate -> list entry -> list cstate -> list entry -> list (event K) -> Prop :=
| hist_nil i s l : hist s0 N delta i s l [] l []
| hist_cons i s l x d g l1 ev tr l2 evs :
    (List.length l < N)%nat ->
    trans delta s (x, d, g) -> saved_step o prm i x d l l1 -> evspec s0 i l1 ev ->
    hist s0 N delta (i + 1) (x, d, g) l1 tr l2 evs ->
    hist s0 N delta i s l ((x, d, g) :: tr) l2 (ev ++ evs).


Lemma hist_le s0 N delta i s l tr l1 evs : hist s0 N delta i s l tr l1 evs -> (List.length l <= N)%nat -> (List.length l1 <= N)%nat.
Proof.
  induction 1 as [|i s l x d g l1 ev tr l2 evs Hlt HT HS HE HH IH]; intros; auto.
  apply IH. unfold saved_step in HS. destruct (saves prm i).
  - destruct HS as (t & _ & ->). rewrite app_length. simpl. lia.
  - subst. lia.
Qed.

Lemma gen_loop_spec (HB : body_ok) s0 n :
  sized s0 n -> p_nsamples prm = Z.of_nat n ->
  forall fuel i X d (w w' : world) out l,
  records o s0 (w_inst w) l -> (List.length l <= n)%nat ->
  gen_loop fuel i (Z.of_nat (List.length l)) X d w = (w', out) ->
  exists tr l1 evs,
    hist s0 n (i_delta (w_inst w)) i (X, d, w_rng w) l tr l1 evs /\
    (List.length tr <= fuel)%nat /\
    keeps (w_inst w) (w_inst w') /\
    (forall k, (k < List.length tr)%nat -> reads (i + Z.of_nat k) -> ~ untracked s0) /\
    match out with
    | Ret _ => List.length l1 = n /\ records o s0 (w_inst w') l1 /\
               i_out (w_inst w') = i_out (w_inst w) ++ evs ++ [EvDone] /\
               w_rng w' = snd (last tr (X, d, w_rng w))
    | NoFuel => (List.length l1 < n)%nat /\ List.length tr = fuel /\ records o s0 (w_inst w') l1 /\
               i_out (w_inst w') = i_out (w_inst w) ++ evs /\
               w_rng w' = snd (last tr (X, d, w_rng w))
    | Exn e => (List.length l1 < n)%nat /\ (List.length tr < fuel)%nat /\
               crash_rec o prm (i + Z.of_nat (List.length tr)) s0 (w_inst w') l1 /\
               (op_raises o e \/
                (e = AttributeError /\ reads (i + Z.of_nat (List.length tr)) /\ untracked s0))
    end.
Proof.
  intros HS HN. induction fuel as [|f IH]; intros i X d w w' out l HR Hle H; simpl in H;
    destruct (Z.of_nat (List.length l) <? p_nsamples prm) eqn:EN.
  - inv H. apply Z.ltb_lt in EN. exists [], l, []. split; [constructor|]. split; [simpl; lia|].
    split; [repeat split|]. split; [simpl; lia|].
    split; [lia|]. split; [reflexivity|]. split; [exact HR|].
    rewrite app_nil_r. auto.
  - apply Z.ltb_ge in EN. destruct (print_inv _ _ _ _ H) as (-> & Hr & Hi).
    exists [], l, []. rewrite Hi. simpl. split; [constructor|]. split; [lia|].
    split; [repeat split|]. split; [lia|].
    split; [lia|]. split; [exact HR|]. auto.
  - apply Z.ltb_lt in EN. assert (Hlt : (List.length l < n)%nat) by lia.
    destruct (bind_inv _ _ _ _ _ H) as [(w1 & [[j' X'] d'] & E & H1)|[(e & E & ->)|(E & ->)]].
    + destruct (HB _ _ _ _ _ _ _ _ _ HS HR Hlt E) as (Hk & HT & l1 & evs & SS & -> & HR1 & Hle1 & Ho & HE & HU).
      destruct (IH _ _ _ _ _ _ _ HR1 Hle1 H1) as (tr & l2 & evs2 & HH & Hlen & Hk2 & HU2 & HO).
      exists ((X', d', w_rng w1) :: tr), l2, (evs ++ evs2).
      split. { econstructor; eauto. destruct Hk as (_ & _ & Hk). rewrite Hk in HH. exact HH. }
      split; [simpl; lia|].
      split; [unfold keeps in *; intuition congruence|].
      split. { intros [|k] Hk' Hrd; simpl in Hk'.
               - apply HU. replace i with (i + Z.of_nat 0) by lia. exact Hrd.
               - apply (HU2 k); [lia|]. replace (i + 1 + Z.of_nat k) with (i + Z.of_nat (S k)) by lia. exact Hrd. }
      rewrite Ho in HO.
      assert (HL : forall s, last ((X', d', w_rng w1) :: tr) s = last tr (X', d', w_rng w1)).
      { clear. revert X' d'. intros. generalize (X', d', w_rng w1). 
        intros p. revert p s. induction tr as [|q tr IH]; intros; [reflexivity|].
        change (last (p :: q :: tr) s) with (last (q :: tr) s). rewrite IH.
        symmetry. apply IH. }
      rewrite HL.
      destruct out.
      * destruct HO as (A & B & C & E'). split; [exact A|]. split; [exact B|]. split; [|exact E'].
        rewrite C, <- !app_assoc. reflexivity.
      * destruct HO as (A & A' & B & C). split; [exact A|]. split; [simpl; lia|].
        simpl List.length. rewrite Nat2Z.inj_succ. replace (i + Z.succ (Z.of_nat (List.length tr))) with (i + 1 + Z.of_nat (List.length tr)) by lia.
        split; [exact B|exact C].
      * destruct HO as (A & A' & B & C & E'). split; [exact A|]. split; [simpl; lia|].
        split; [exact B|]. split; [|exact E']. rewrite C, <- !app_assoc. reflexivity.
    + destruct (HB _ _ _ _ _ _ _ _ _ HS HR Hlt E) as (Hk & HT & HX).
      exists [], l, []. split; [constructor|]. split; [simpl; lia|]. split; [exact Hk|].
      split; [simpl; lia|]. split; [exact Hlt|]. split; [simpl; lia|].
      simpl. rewrite Z.add_0_r. split; [exact HT|exact HX].
    + destruct (HB _ _ _ _ _ _ _ _ _ HS HR Hlt E) as (_ & []).
  - apply Z.ltb_ge in EN. destruct (print_inv _ _ _ _ H) as (-> & Hr & Hi).
    exists [], l, []. rewrite Hi. simpl. split; [constructor|]. split; [lia|].
    split; [repeat split|]. split; [lia|].
    split; [lia|]. split; [exact HR|]. auto.
Qed.

(** ** reading a history *)

Lemma hist_path s0 N delta i s l tr l1 evs :
  hist s0 N delta i s l tr l1 evs -> path (trans delta) s tr.
Proof. induction 1; constructor; auto. Qed.

(** indices of the saved states, counted from the start of [tr] *)
Fixpoint saved_idx (i : Z) (n : nat) : list nat :=
  match n with
  | O => []
  | S m => (if saves prm i then [O] else []) ++ map S (saved_idx (i + 1) m)
  end.

Definition picks (tr : list cstate) (k : nat) (e : entry) : Prop :=
  entry_ok o e /\ exists st, nth_error tr k = Some st /\ of_state st e.

Lemma hist_saved s0 N delta i s l tr l1 evs :
  hist s0 N delta i s l tr l1 evs ->
  exists l', l1 = l ++ l' /\ Forall2 (picks tr) (saved_idx i (List.length tr)) l'.
Proof.
  induction 1 as [i s l|i s l x d g l1 ev tr l2 evs Hlt HT HS HE HH (l' & -> & HF)].
  - exists []. rewrite app_nil_r. split; [reflexivity|constructor].
  - assert (HF2 : Forall2 (picks ((x, d, g) :: tr)) (map S (saved_idx (i + 1) (List.length tr))) l').
    { clear -HF. induction HF; simpl; constructor; auto. }
    unfold saved_step in HS. simpl. destruct (saves prm i).
    + destruct HS as (t & Ht & ->). exists ((x, d, t) :: l').
      split; [rewrite <- app_assoc; reflexivity|].
      simpl. constructor; [|exact HF2].
      split; [exact Ht|]. exists (x, d, g). split; [reflexivity|]. split; reflexivity.
    + subst. exists l'. split; [reflexivity|]. simpl. exact HF2.
Qed.

(** the loop stops at the first moment N entries are saved *)
Lemma hist_minimal s0 N delta i s l tr l1 evs :
  hist s0 N delta i s l tr l1 evs -> tr <> [] -> List.length l1 = N ->
  exists i' tr', tr = tr' ++ [last tr s] /\ i' = i + Z.of_nat (List.length tr') /\ saves prm i' = true.
Proof.
  induction 1 as [i s l|i s l x d g l1 ev tr l2 evs Hlt HT HS HE HH IH]; intros Hne HL; [congruence|].
  destruct tr as [|st tr].
  - exists i, []. simpl. split; [reflexivity|]. split; [lia|].
    inv HH. unfold saved_step in HS. destruct (saves prm i); [reflexivity|]. subst. lia.
  - destruct IH as (i' & tr' & E & -> & Hs); [discriminate|exact HL|].
    exists (i + 1 + Z.of_nat (List.length tr')), ((x, d, g) :: tr').
    split.
    { change (last ((x, d, g) :: st :: tr) s) with (last (st :: tr) s).
      assert (Q : forall (q : cstate) t a b, last (q :: t) a = last (q :: t) b).
      { clear. intros q t; revert q; induction t; intros; [reflexivity|].
        change (last (a :: t) a0 = last (a :: t) b). apply IHt. }
      rewrite (Q st tr s (x, d, g)). simpl app. f_equal. exact E. }
    split; [|exact Hs]. simpl List.length. lia.
Qed.

(** printed lines, iteration by iteration *)
Lemma hist_events s0 N delta i s l tr l1 evs :
  hist s0 N delta i s l tr l1 evs ->
  exists groups, evs = List.concat groups /\ List.length groups = List.length tr /\
    forall k, (k < List.length tr)%nat ->
      exists ev, nth_error groups k = Some ev /\
        evspec s0 (i + Z.of_nat k) (firstn (List.length l + List.length (saved_idx i (S k))) l1) ev.
Proof.
  induction 1 as [i s l|i s l x d g l1 ev tr l2 evs Hlt HT HS HE HH (gr & -> & HL & HG)].
  - exists []. simpl. repeat split; auto. lia.
  - exists (ev :: gr). split; [reflexivity|]. split; [simpl; congruence|].
    destruct (hist_saved _ _ _ _ _ _ _ _ _ HH) as (l' & -> & _).
    assert (LL : List.length l1 = (List.length l + List.length (if saves prm i then [O] else []))%nat).
    { unfold saved_step in HS. destruct (saves prm i); [destruct HS as (t & _ & ->)|subst];
      rewrite ?app_length; simpl; lia. }
    intros [|k] Hk.
    + exists ev. split; [reflexivity|]. rewrite Z.add_0_r.
      replace (firstn _ (l1 ++ l')) with l1; [exact HE|].
      simpl saved_idx. rewrite app_nil_r. rewrite <- LL.
      rewrite firstn_app, Nat.sub_diag, firstn_all. simpl. rewrite app_nil_r. reflexivity.
    + simpl in Hk. destruct (HG k) as (ev' & E1 & E2); [lia|].
      exists ev'. split; [exact E1|].
      replace (i + Z.of_nat (S k)) with (i + 1 + Z.of_nat k) by lia.
      change (saved_idx i (S (S k))) with ((if saves prm i then [O] else []) ++ map S (saved_idx (i + 1) (S k))).
      rewrite app_length, map_length, Nat.add_assoc, <- LL. exact E2.
Qed.

End Loop.

(** ** MYULA and SKROCK as instances *)
Section Instances.
Context {V D K P G I : Type}.
Variable o : ops V D K P G I.
Variable prm : params.

Lemma myula_loop_gen fuel : forall i j X d,
  myula_loop o prm fuel i j X d = gen_loop prm (myula_body o prm) fuel i j X d.
Proof. induction fuel; intros; reflexivity. Qed.

Lemma skrock_loop_gen fuel : forall i j X d,
  skrock_loop o prm fuel i j X d = gen_loop prm (skrock_body o prm) fuel i j X d.
Proof. induction fuel; intros; reflexivity. Qed.

Definition myula_reads (i : Z) : Prop := progress_due prm i = true /\ p_nburn prm <= i.
Definition skrock_reads (i : Z) : Prop := progress_due prm i = true.

Lemma myula_body_ok : body_ok o prm (myula_body o prm) (myula_trans o) (myula_events o prm) myula_reads.
Proof.
  intros s0 l i X d w w' out n HS HR Hl H.
  destruct (myula_body_spec o prm s0 l i _ X d w w' out n HS HR eq_refl Hl H) as (A & B).
  split; [exact A|]. unfold myula_reads. destruct out as [[[j' X'] d']|e|]; [| |exact B].
  - destruct B as (B & l1 & evs & B1 & B2 & B3 & B4 & B5 & B6 & B7). split; [exact B|].
    exists l1, evs. tauto.
  - tauto.
Qed.

Lemma skrock_body_ok : body_ok o prm (skrock_body o prm) (skrock_trans o) (skrock_events o prm) skrock_reads.
Proof.
  intros s0 l i X d w w' out n HS HR Hl H.
  exact (skrock_body_spec o prm s0 l i _ X d w w' out n HS HR eq_refl Hl H).
Qed.
End Instances.
