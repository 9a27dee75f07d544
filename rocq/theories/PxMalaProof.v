(** PxMALA.run: the cached loop refines the uncached Metropolis-Hastings reference. *)
From Coq Require Import List ZArith Lia Bool String Sorted.
From Verif Require Import PyBase PyBaseFacts Sampler SamplerSpec SamplerFacts MyulaProof LoopProof ScheduleProof SamplerThms.
Import ListNotations.
Open Scope Z_scope.

Ltac bcase H w1 a E H1 :=
  let e := fresh "e" in
  destruct (bind_inv _ _ _ _ _ H) as [(w1 & a & E & H1)|[(e & E & ->)|(E & ->)]]; clear H.
Ltac lcase E a Q :=
  let e := fresh "e" in let E2 := fresh "QQ" in
  destruct (lift_inv _ _ _ _ E) as (-> & [(a & Q & E2)|(e & Q & E2)]); clear E; inversion E2; clear E2; try subst.
Ltac rcase E a QI Q :=
  let e := fresh "e" in let E2 := fresh "QQ" in
  destruct (with_rng_inv _ _ _ _ E) as (QI & [(a & Q & E2)|(e & Q & E2)]); clear E; inversion E2; clear E2; try subst.

Section Mala.
Context {V D K P G I : Type}.
Variable o : ops V D K P G I.
Variable prm : params.
Variable tune : bool.
Notation inst := (inst V D K P).
Notation world := (world V D K P G).
Notation entry := (entry V D K).
Notation mh_state := (mh_state V P G).
Notation mala_state := (mala_state V D K).

(** the cache invariant *)
Definition coherent (c : mala_state) : Prop :=
  o_forward o (m_X c) = Ok (m_preds c) /\ o_gradg o (m_preds c) = Ok (m_gradg c) /\
  o_proxf o (m_X c) = Ok (m_proxf c) /\
  o_logpi o (m_X c) (m_preds c) = Ok (m_logpi c, m_L2 c, m_prior c).

Definition m_entry (c : mala_state) : entry := (m_X c, m_preds c, (m_logpi c, m_L2 c, m_prior c)).

Definition msaved (i : Z) (acc : bool) (c : mala_state) (l : list entry) : list entry :=
  if saves prm i && acc then l ++ [m_entry c] else l.

Definition mevents (i : Z) (accs : list Z) (c : mala_state) (l1 : list entry) : list (event K) :=
  if progress_due prm i
  then [EvProgress (Z.of_nat (List.length l1)) (m_logpi c) (m_L2 c) (m_prior c) (Some accs)]
  else [].

Definition mcrash (s0 s : inst) (l : list entry) : Prop :=
  records_torn o s0 s l.

Lemma pxmala_body_spec s0 l i c (w w' : world) out n accs ds :
  sized s0 n -> records o s0 (w_inst w) l -> (List.length l < n)%nat ->
  coherent c -> 0 <= i -> i_acc (w_inst w) = Some accs -> List.length accs = Z.to_nat i ->
  i_deltas (w_inst w) = Some ds ->
  pxmala_body o prm tune i (Z.of_nat (List.length l)) c w = (w', out) ->
  match out with
  | Ret (j', c') => exists acc delta',
      mh_trans o tune i (m_X c, i_delta (w_inst w), w_rng w) acc (m_X c', delta', w_rng w') /\
      coherent c' /\ (acc = false -> c' = c) /\
      i_delta (w_inst w') = delta' /\
      i_acc (w_inst w') = Some (accs ++ [b2z acc]) /\
      i_deltas (w_inst w') = Some (ds ++ if tune then [delta'] else []) /\
      j' = Z.of_nat (List.length (msaved i acc c' l)) /\
      records o s0 (w_inst w') (msaved i acc c' l) /\
      (List.length (msaved i acc c' l) <= n)%nat /\
      i_out (w_inst w') = i_out (w_inst w) ++ mevents i (accs ++ [b2z acc]) c' (msaved i acc c' l)
  | Exn e => crash_rec o prm i s0 (w_inst w') l /\ op_raises o e
  | NoFuel => False
  end.
Proof.
  intros HS HR Hl HC Hi HA HAL HD H. unfold pxmala_body in H.
  pose proof (crash_rec_of o prm i _ _ _ HR) as HT.
  bcase H w1 s E H1; [|discriminate E|discriminate E].
  inversion E; clear E; subst w1 s.
  bcase H1 w2 Y E H; [|rcase E y QI Q; rewrite QI; split; [exact HT|eapply opr_step; eauto]|rcase E y QI Q].
  rcase E Y1 QI Qs.
  bcase H w1 dY E H1; [|lcase E y Q; rewrite QI; split; [exact HT|eapply opr_fwd; eauto]|lcase E y Q].
  lcase E dY1 Qf.
  bcase H1 w1 gY E H; [|lcase E y Q; rewrite QI; split; [exact HT|eapply opr_gradg; eauto]|lcase E y Q].
  lcase E gY1 Qg.
  bcase H w1 pY E H1; [|lcase E y Q; rewrite QI; split; [exact HT|eapply opr_proxf; eauto]|lcase E y Q].
  lcase E pY1 Qp.
  bcase H1 w1 q1 E H; [|lcase E y Q; rewrite QI; split; [exact HT|eapply opr_logtrans; eauto]|lcase E y Q].
  lcase E qa Qa.
  bcase H w1 q2 E H1; [|lcase E y Q; rewrite QI; split; [exact HT|eapply opr_logtrans; eauto]|lcase E y Q].
  lcase E qb Qb.
  bcase H1 w1 t E H; [|lcase E y Q; rewrite QI; split; [exact HT|eapply opr_logpi; eauto]|lcase E y Q].
  lcase E t1 Ql. destruct t1 as [[lpY l2Y] prY].
  set (la := o_ksub o (o_ksub o (o_kadd o qb lpY) qa) (m_logpi c)) in *.
  bcase H w3 u E H1; [|exfalso|exfalso].
  2:{ destruct (with_rng_inv _ _ _ _ E) as (_ & [(b & Q1 & Q2)|(b & Q1 & Q2)]); [discriminate|].
      destruct (o_logrand o (w_rng w2)); discriminate. }
  2:{ destruct (with_rng_inv _ _ _ _ E) as (_ & [(b & Q1 & Q2)|(b & Q1 & Q2)]); discriminate. }
  destruct (with_rng_inv _ _ _ _ E) as (QI3 & [(b & Q1 & Q2)|(b & Q1 & Q2)]); [|discriminate].
  inv Q2. rename b into u.
  assert (QU : o_logrand o (w_rng w2) = (u, w_rng w3)).
  { destruct (o_logrand o (w_rng w2)) as [u' g'']. inv Q1. reflexivity. }
  clear Q1 E.
  rename Y1 into Y. rename dY1 into dY. rename gY1 into gY. rename pY1 into pY.
  set (acc := o_kltb o u la) in *.
  assert (WI3 : w_inst w3 = w_inst w) by congruence.
  (* accept/reject *)
  set (c' := if acc then mkMala Y dY gY pY lpY l2Y prY else c).
  assert (HC' : coherent c').
  { unfold c'. destruct acc; [|exact HC]. repeat split; assumption. }
  assert (HX' : m_X c' = if acc then Y else m_X c) by (unfold c'; destruct acc; reflexivity).
  bcase H1 w4 c4 E H.
  2:{ exfalso. destruct acc; unfold append_acc, bind, get_inst in E; cbn in E; rewrite WI3, HA in E; discriminate E. }
  2:{ exfalso. destruct acc; unfold append_acc, bind, get_inst in E; cbn in E; rewrite WI3, HA in E; discriminate E. }
  assert (E4 : c4 = c' /\ w4 = mkWorld (set_acc (Some (accs ++ [b2z acc])) (w_inst w)) (w_rng w3)).
  { unfold c'. destruct acc; unfold append_acc, bind, get_inst in E; cbn in E; rewrite WI3, HA in E; injection E as E1 E2; subst c4 w4; split; reflexivity. }
  destruct E4 as (-> & ->). clear E.
  (* tuning *)
  set (delta' := if tune then o_tune o (i_delta (w_inst w)) (b2z acc) i else i_delta (w_inst w)).
  assert (PI : py_index (accs ++ [b2z acc]) i = Ok (b2z acc)).
  { rewrite (py_index_ok _ _ 0); [|rewrite app_length; simpl; lia].
    rewrite app_nth2; [|lia]. replace (Z.to_nat i - List.length accs)%nat with 0%nat by lia. reflexivity. }
  bcase H w5 u5 E H1.
  2:{ exfalso. destruct tune; [|discriminate E].
      unfold tune_delta, append_delta, read_attr, bind, get_inst in E. cbn in E. rewrite PI in E. cbn in E.
      rewrite HD in E. discriminate E. }
  2:{ exfalso. destruct tune; [|discriminate E].
      unfold tune_delta, append_delta, read_attr, bind, get_inst in E. cbn in E. rewrite PI in E. cbn in E.
      rewrite HD in E. discriminate E. }
  assert (E5 : w_rng w5 = w_rng w3 /\ same_tracked (w_inst w) (w_inst w5) /\
               i_acc (w_inst w5) = Some (accs ++ [b2z acc]) /\ i_delta (w_inst w5) = delta' /\
               i_deltas (w_inst w5) = Some (ds ++ if tune then [delta'] else []) /\
               i_out (w_inst w5) = i_out (w_inst w)).
  { unfold delta'. destruct tune.
    - unfold tune_delta, append_delta, read_attr, bind, get_inst in E. cbn in E. rewrite PI in E. cbn in E.
      rewrite HD in E. inv E. cbn. repeat split; auto.
    - inv E. cbn. rewrite app_nil_r. repeat split; auto. }
  destruct E5 as (R5 & T5 & A5 & D5 & DS5 & O5). clear E.
  assert (HR5 : records o s0 (w_inst w5) l) by (eapply records_same; eauto).
  pose proof (records_sized _ _ _ _ _ HR5 HS) as HS5.
  assert (MH : mh_trans o tune i (m_X c, i_delta (w_inst w), w_rng w) acc (m_X c', delta', w_rng w3)).
  { exists Y, (w_rng w2), u, la. destruct HC as (C1 & C2 & C3 & C4).
    split. { exists (m_preds c), (m_gradg c), (m_proxf c). auto. }
    split. { exists (m_preds c), (m_gradg c), (m_proxf c), (m_logpi c, m_L2 c, m_prior c),
                    dY, gY, pY, (lpY, l2Y, prY), qa, qb. repeat (split; [assumption|]). reflexivity. }
    auto. }
  (* saving *)
  assert (SAVE : forall w6 j6,
    (if p_nburn prm <=? i then
       if grid_hit prm i && acc then
         bind (tracking o (Z.of_nat (List.length l)) (m_X c') (m_preds c') (m_logpi c') (m_L2 c') (m_prior c'))
              (fun _ => ret (Z.of_nat (List.length l) + 1))
       else ret (Z.of_nat (List.length l))
     else ret (Z.of_nat (List.length l))) w5 = (w6, j6) ->
    w_rng w6 = w_rng w5 /\ same_rest (w_inst w5) (w_inst w6) /\
    match j6 with
    | Ret j' => j' = Z.of_nat (List.length (msaved i acc c' l)) /\ records o s0 (w_inst w6) (msaved i acc c' l)
    | Exn e => crash_rec o prm i s0 (w_inst w6) l /\ op_raises o e
    | NoFuel => False
    end).
  { intros w6 j6 E. unfold msaved, saves. unfold crash_rec, saves.
    destruct (p_nburn prm <=? i); simpl andb.
    2:{ inv E. repeat split; auto; apply HR5. }
    destruct (grid_hit prm i); simpl andb in *.
    2:{ inv E. repeat split; auto; apply HR5. }
    destruct acc eqn:Eacc.
    2:{ inv E. repeat split; auto; apply HR5. }
    bcase E w7 u7 E1 H.
    - injection H as H1' H2'; subst w7 j6. destruct (tracking_spec o _ _ _ _ _ _ _ _ _ n (conj (Nat2Z.is_nonneg _) (proj1 (Nat2Z.inj_lt _ _) Hl)) HS5 E1) as (A & B & C).
      rewrite Nat2Z.id in C. split; [exact A|]. split; [exact B|].
      split; [rewrite app_length; simpl; lia|]. eapply records_upd; eauto.
    - pose proof (tracking_exn _ _ _ _ _ _ _ _ _ _ n (conj (Nat2Z.is_nonneg _) (proj1 (Nat2Z.inj_lt _ _) Hl)) HS5 E1) as HX.
      destruct (tracking_spec o _ _ _ _ _ _ _ _ _ n (conj (Nat2Z.is_nonneg _) (proj1 (Nat2Z.inj_lt _ _) Hl)) HS5 E1) as (A & B & C).
      rewrite Nat2Z.id in C. split; [exact A|]. split; [exact B|]. split; [|exact HX].
      eapply records_maybe; eauto.
    - destruct (tracking_spec o _ _ _ _ _ _ _ _ _ n (conj (Nat2Z.is_nonneg _) (proj1 (Nat2Z.inj_lt _ _) Hl)) HS5 E1) as (_ & _ & []). }
  assert (LE : (List.length (msaved i acc c' l) <= n)%nat).
  { unfold msaved. destruct (saves prm i && acc); rewrite ?app_length; simpl; lia. }
  bcase H1 w6 j6 E H.
  2:{ destruct (SAVE _ _ E) as (_ & _ & X). exact X. }
  2:{ destruct (SAVE _ _ E) as (_ & _ & []). }
  destruct (SAVE _ _ E) as (R6 & SR6 & -> & HR6). clear SAVE E.
  destruct SR6 as (SA & SD & SDE & SO).
  bcase H w7 u7 E H1.
  2:{ exfalso. destruct (progress_due prm i); [|discriminate E].
      unfold bind, get_inst, print, put_inst in E. discriminate E. }
  2:{ exfalso. destruct (progress_due prm i); [|discriminate E].
      unfold bind, get_inst, print, put_inst in E. discriminate E. }
  inversion H1; clear H1; subst w7 out. exists acc, delta'.
  assert (FIN : w_rng w' = w_rng w3 /\ same_tracked (w_inst w6) (w_inst w') /\ i_delta (w_inst w') = delta' /\
    i_acc (w_inst w') = Some (accs ++ [b2z acc]) /\
    i_deltas (w_inst w') = Some (ds ++ if tune then [delta'] else []) /\
    i_out (w_inst w') = i_out (w_inst w) ++ mevents i (accs ++ [b2z acc]) c' (msaved i acc c' l)).
  { unfold mevents. destruct (progress_due prm i).
    - assert (H1 : print (EvProgress (Z.of_nat (List.length (msaved i acc c' l)) - 1 + 1) (m_logpi c') (m_L2 c') (m_prior c') (i_acc (w_inst w6))) w6 = (w', Ret u7)) by exact E.
      destruct (print_inv _ _ _ _ H1) as (_ & Hr & Hp). rewrite Hp. cbn.
      split; [congruence|]. split; [repeat split|]. split; [congruence|]. split; [congruence|]. split; [congruence|].
      rewrite SO, O5, SA, A5. repeat f_equal. lia.
    - inversion E; subst w6. rewrite app_nil_r.
      split; [congruence|]. split; [repeat split|]. split; [congruence|]. split; [congruence|]. split; congruence. }
  destruct FIN as (F1 & F2 & F3 & F4 & F5 & F6).
  split; [rewrite F1; exact MH|]. split; [exact HC'|]. split; [intros Ea; unfold c'; rewrite Ea; reflexivity|].
  split; [exact F3|]. split; [exact F4|]. split; [exact F5|]. split; [reflexivity|].
  split; [eapply records_same; eauto|]. split; [exact LE|exact F6].
Qed.

(** ** the loop *)

(** cumulative traces along a labelled trajectory *)
Definition acc_trace (tr : list (bool * mh_state)) : list Z := map (fun p => b2z (fst p)) tr.
Definition delta_trace (tr : list (bool * mh_state)) : list P :=
  if tune then map (fun p => snd (fst (snd p))) tr else [].

(** history without storage: [accs] the acceptance trace so far *)
Inductive mhist (N : nat) : Z -> mh_state -> list Z -> list entry -> list (bool * mh_state) -> list entry -> list (event K) -> Prop :=
| mhist_nil i s accs l : mhist N i s accs l [] l []
| mhist_cons i s accs l acc c delta g tr l2 evs :
    (List.length l < N)%nat -> coherent c ->
    mh_trans o tune i s acc (m_X c, delta, g) ->
    mhist N (i + 1) (m_X c, delta, g) (accs ++ [b2z acc]) (msaved i acc c l) tr l2 evs ->
    mhist N i s accs l ((acc, (m_X c, delta, g)) :: tr) l2
          (mevents i (accs ++ [b2z acc]) c (msaved i acc c l) ++ evs).

Definition mlast (tr : list (bool * mh_state)) (s : mh_state) : mh_state := snd (last tr (true, s)).

Lemma mlast_cons p tr s : mlast (p :: tr) s = mlast tr (snd p).
Proof. unfold mlast. rewrite last_cons. destruct tr as [|q tr]; [reflexivity|]. rewrite !last_cons. reflexivity. Qed.

Lemma pxmala_loop_spec s0 n :
  sized s0 n -> p_nsamples prm = Z.of_nat n ->
  forall fuel i c (w w' : world) out l accs ds,
  records o s0 (w_inst w) l -> (List.length l <= n)%nat ->
  coherent c -> 0 <= i -> i_acc (w_inst w) = Some accs -> List.length accs = Z.to_nat i ->
  i_deltas (w_inst w) = Some ds ->
  pxmala_loop o prm tune fuel i (Z.of_nat (List.length l)) c w = (w', out) ->
  exists tr l1 evs,
    mhist n i (m_X c, i_delta (w_inst w), w_rng w) accs l tr l1 evs /\
    (List.length tr <= fuel)%nat /\
    match out with
    | Exn e => (List.length l1 < n)%nat /\ (List.length tr < fuel)%nat /\
               crash_rec o prm (i + Z.of_nat (List.length tr)) s0 (w_inst w') l1 /\ op_raises o e
    | _ => records o s0 (w_inst w') l1 /\
           i_acc (w_inst w') = Some (accs ++ acc_trace tr) /\
           i_deltas (w_inst w') = Some (ds ++ delta_trace tr) /\
           mlast tr (m_X c, i_delta (w_inst w), w_rng w) =
             (fst (fst (mlast tr (m_X c, i_delta (w_inst w), w_rng w))), i_delta (w_inst w'), w_rng w') /\
           match out with
           | Ret _ => List.length l1 = n /\ i_out (w_inst w') = i_out (w_inst w) ++ evs ++ [EvDone]
           | _ => (List.length l1 < n)%nat /\ List.length tr = fuel /\
                  i_out (w_inst w') = i_out (w_inst w) ++ evs
           end
    end.
Proof.
  intros HS HN. induction fuel as [|f IH]; intros i c w w' out l accs ds HR Hle HC Hi HA HAL HD H; simpl in H;
    destruct (Z.of_nat (List.length l) <? p_nsamples prm) eqn:EN.
  - inv H. apply Z.ltb_lt in EN. exists [], l, []. split; [constructor|]. split; [simpl; lia|].
    cbn. unfold delta_trace. simpl map. replace (if tune then [] else []) with (@nil P) by (destruct tune; reflexivity).
    rewrite !app_nil_r. repeat (split; auto); try apply HR. lia.
  - apply Z.ltb_ge in EN. destruct (print_inv _ _ _ _ H) as (-> & Hr & Hp).
    exists [], l, []. rewrite Hp. split; [constructor|]. split; [simpl; lia|].
    cbn. unfold delta_trace. simpl map. replace (if tune then [] else []) with (@nil P) by (destruct tune; reflexivity).
    rewrite !app_nil_r. repeat (split; auto); try apply HR. congruence. lia.
  - apply Z.ltb_lt in EN. assert (Hlt : (List.length l < n)%nat) by lia.
    destruct (bind_inv _ _ _ _ _ H) as [(w1 & [j' c'] & E & H1)|[(e & E & ->)|(E & ->)]].
    + destruct (pxmala_body_spec _ _ _ _ _ _ _ _ _ _ HS HR Hlt HC Hi HA HAL HD E)
        as (acc & delta' & MT & HC' & Hrej & Hd & HA' & HD' & -> & HR1 & Hle1 & Ho).
      assert (HAL' : List.length (accs ++ [b2z acc]) = Z.to_nat (i + 1)) by (rewrite app_length; simpl; lia).
      assert (Hi' : 0 <= i + 1) by lia.
      destruct (IH _ _ _ _ _ _ _ _ HR1 Hle1 HC' Hi' HA' HAL' HD' H1) as (tr & l2 & evs2 & HH & Hlen & HO).
      exists ((acc, (m_X c', delta', w_rng w1)) :: tr), l2, (mevents i (accs ++ [b2z acc]) c' (msaved i acc c' l) ++ evs2).
      rewrite Hd in *.
      split. { econstructor; eauto. }
      split; [simpl; lia|].
      assert (TA : acc_trace ((acc, (m_X c', delta', w_rng w1)) :: tr) = [b2z acc] ++ acc_trace tr) by reflexivity.
      assert (TD : delta_trace ((acc, (m_X c', delta', w_rng w1)) :: tr) = (if tune then [delta'] else []) ++ delta_trace tr).
      { unfold delta_trace. destruct tune; reflexivity. }
      rewrite mlast_cons. cbn [snd].
      destruct out as [u|e|].
      * destruct HO as (A & B & C & L & N1 & O1).
        split; [exact A|]. rewrite TA, TD, !app_assoc. split; [rewrite B; reflexivity|].
        split; [rewrite C; reflexivity|]. split; [exact L|].
        split; [exact N1|]. rewrite O1, Ho, <- !app_assoc. reflexivity.
      * destruct HO as (A & B & C & R). split; [exact A|]. split; [simpl; lia|].
        simpl List.length. rewrite Nat2Z.inj_succ.
        replace (i + Z.succ (Z.of_nat (List.length tr))) with (i + 1 + Z.of_nat (List.length tr)) by lia.
        split; assumption.
      * destruct HO as (A & B & C & L & N1 & N2 & O1).
        split; [exact A|]. rewrite TA, TD, !app_assoc. split; [rewrite B; reflexivity|].
        split; [rewrite C; reflexivity|]. split; [exact L|].
        split; [exact N1|]. split; [simpl; congruence|]. rewrite O1, Ho, <- !app_assoc. reflexivity.
    + destruct (pxmala_body_spec _ _ _ _ _ _ _ _ _ _ HS HR Hlt HC Hi HA HAL HD E) as (HT & HX).
      exists [], l, []. split; [constructor|]. split; [simpl; lia|].
      split; [exact Hlt|]. split; [simpl; lia|]. simpl. rewrite Z.add_0_r. auto.
    + destruct (pxmala_body_spec _ _ _ _ _ _ _ _ _ _ HS HR Hlt HC Hi HA HAL HD E).
  - apply Z.ltb_ge in EN. destruct (print_inv _ _ _ _ H) as (-> & Hr & Hp).
    exists [], l, []. rewrite Hp. split; [constructor|]. split; [simpl; lia|].
    cbn. unfold delta_trace. simpl map. replace (if tune then [] else []) with (@nil P) by (destruct tune; reflexivity).
    rewrite !app_nil_r. repeat (split; auto); try apply HR. congruence. lia.
Qed.

(** ** reading a history *)
Lemma mhist_path N i s accs l tr l1 evs :
  mhist N i s accs l tr l1 evs -> mh_path o tune i s tr.
Proof. induction 1; econstructor; eauto. Qed.

Fixpoint msaved_idx (i : Z) (tr : list (bool * mh_state)) : list nat :=
  match tr with
  | [] => []
  | p :: tr' => (if saves prm i && fst p then [O] else []) ++ map S (msaved_idx (i + 1) tr')
  end.

Lemma mhist_saved N i s accs l tr l1 evs :
  mhist N i s accs l tr l1 evs ->
  exists l', l1 = l ++ l' /\ Forall2 (mh_entry o tr) (msaved_idx i tr) l'.
Proof.
  induction 1 as [i s accs l|i s accs l acc c delta g tr l2 evs Hlt HC HT HH (l' & -> & HF)].
  - exists []. rewrite app_nil_r. split; [reflexivity|constructor].
  - assert (HF2 : Forall2 (mh_entry o ((acc, (m_X c, delta, g)) :: tr)) (map S (msaved_idx (i + 1) tr)) l').
    { clear -HF. induction HF as [|k e idx l' (A & B & C) HF IH]; simpl; constructor; auto.
      split; [exact A|]. split; [exact B|]. exact C. }
    simpl. unfold msaved. destruct (saves prm i && acc).
    + exists (m_entry c :: l'). split; [rewrite <- app_assoc; reflexivity|].
      constructor; [|exact HF2]. destruct HC as (C1 & C2 & C3 & C4).
      split; [exact C1|]. split; [exact C4|]. exists acc, delta, g. reflexivity.
    + exists l'. split; [reflexivity|exact HF2].
Qed.

Lemma saves_on_grid i : saves prm i = true <-> on_grid (p_nburn prm) (p_ngap prm) i.
Proof.
  unfold saves, grid_hit, on_grid. rewrite andb_true_iff, orb_true_iff, Z.leb_le, !Z.eqb_eq.
  destruct (Z.eq_dec (p_ngap prm) 0) as [E|E].
  - rewrite E. tauto.
  - rewrite Z.mod_divide by exact E. unfold Z.divide. tauto.
Qed.

Lemma msaved_idx_spec tr : forall i,
  StronglySorted lt (msaved_idx i tr) /\
  forall k, In k (msaved_idx i tr) <->
    on_grid (p_nburn prm) (p_ngap prm) (i + Z.of_nat k) /\ exists s, nth_error tr k = Some (true, s).
Proof.
  induction tr as [|[acc s] tr IH]; intros i; simpl.
  - split; [constructor|]. intros k. split; [tauto|]. intros (_ & s & E). destruct k; discriminate.
  - destruct (IH (i + 1)) as (S1 & S2).
    assert (SM : StronglySorted lt (map S (msaved_idx (i + 1) tr))).
    { clear -S1. induction S1 as [|a l HS IH HF]; simpl; constructor; auto.
      apply Forall_map. eapply Forall_impl; [|exact HF]. simpl. lia. }
    split.
    + destruct (saves prm i && acc); simpl; [|exact SM].
      constructor; [exact SM|]. apply Forall_map. apply Forall_forall. lia.
    + intros k. rewrite in_app_iff, in_map_iff. destruct k as [|k]; simpl nth_error.
      * rewrite Z.add_0_r, <- saves_on_grid. destruct (saves prm i); destruct acc; simpl.
        -- split; [intros _; split; [reflexivity|eauto]|auto].
        -- split; [intros [[]|(x & X & _)]; discriminate|intros (_ & s' & X); discriminate].
        -- split; [intros [[]|(x & X & _)]; discriminate|intros (X & _); discriminate].
        -- split; [intros [[]|(x & X & _)]; discriminate|intros (X & _); discriminate].
      * replace (i + Z.of_nat (S k)) with (i + 1 + Z.of_nat k) by lia. rewrite <- S2.
        split.
        -- intros [X|(x & X & Y)].
           ++ destruct (saves prm i && acc); simpl in X; [destruct X; [discriminate|tauto]|tauto].
           ++ inv X. exact Y.
        -- intros X. right. exists k. auto.
Qed.

Lemma mhist_minimal N i s accs l tr l1 evs :
  mhist N i s accs l tr l1 evs -> tr <> [] -> List.length l1 = N ->
  exists m, List.length tr = S m /\ In m (msaved_idx i tr).
Proof.
  induction 1 as [i s accs l|i s accs l acc c delta g tr l2 evs Hlt HC HT HH IH]; intros Hne HL; [congruence|].
  destruct tr as [|p tr].
  - exists O. split; [reflexivity|]. inv HH. simpl. unfold msaved in Hlt.
    unfold msaved in *. destruct (saves prm i && acc); [left; reflexivity|]. lia.
  - destruct IH as (m & E & Hin); [discriminate|exact HL|].
    exists (S m). split; [simpl in *; congruence|].
    change (msaved_idx i ((acc, (m_X c, delta, g)) :: p :: tr)) with
      ((if saves prm i && acc then [O] else []) ++ map S (msaved_idx (i + 1) (p :: tr))).
    apply in_or_app. right. apply in_map. exact Hin.
Qed.

(** printed lines *)
Definition mh_line (tr : list (bool * mh_state)) (k : nat) (cnt : nat) (ev : event K) : Prop :=
  exists acc x delta g d lp l2 pr,
    nth_error tr k = Some (acc, (x, delta, g)) /\ o_forward o x = Ok d /\ o_logpi o x d = Ok (lp, l2, pr) /\
    ev = EvProgress (Z.of_nat cnt) lp l2 pr (Some (acc_trace (firstn (S k) tr))).

Lemma mhist_events N i s accs l tr l1 evs :
  mhist N i s accs l tr l1 evs ->
  exists groups, evs = List.concat groups /\ List.length groups = List.length tr /\
    forall k, (k < List.length tr)%nat ->
      if progress_due prm (i + Z.of_nat k) then
        exists acc x delta g d lp l2 pr,
          nth_error tr k = Some (acc, (x, delta, g)) /\ o_forward o x = Ok d /\ o_logpi o x d = Ok (lp, l2, pr) /\
          nth_error groups k =
            Some [EvProgress (Z.of_nat (List.length l + List.length (msaved_idx i (firstn (S k) tr)))) lp l2 pr
                    (Some (accs ++ acc_trace (firstn (S k) tr)))]
      else nth_error groups k = Some [].
Proof.
  induction 1 as [i s accs l|i s accs l acc c delta g tr l2 evs Hlt HC HT HH (gr & -> & HL & HG)].
  - exists []. simpl. repeat split; auto. lia.
  - exists (mevents i (accs ++ [b2z acc]) c (msaved i acc c l) :: gr).
    split; [reflexivity|]. split; [simpl; congruence|].
    assert (LL : List.length (msaved i acc c l) = (List.length l + List.length (if saves prm i && acc then [O] else []))%nat).
    { unfold msaved. destruct (saves prm i && acc); rewrite ?app_length; simpl; lia. }
    intros [|k] Hk.
    + rewrite Z.add_0_r. unfold mevents. simpl nth_error. destruct (progress_due prm i) eqn:EP; [|reflexivity].
      destruct HC as (C1 & C2 & C3 & C4).
      exists acc, (m_X c), delta, g, (m_preds c), (m_logpi c), (m_L2 c), (m_prior c).
      split; [reflexivity|]. split; [exact C1|]. split; [exact C4|].
      rewrite LL. simpl firstn. unfold acc_trace. simpl. rewrite app_nil_r. reflexivity.
    + simpl in Hk. specialize (HG k ltac:(lia)).
      replace (i + Z.of_nat (S k)) with (i + 1 + Z.of_nat k) by lia.
      destruct (progress_due prm (i + 1 + Z.of_nat k)); [|exact HG].
      destruct HG as (acc' & x & dl & g' & d & lp & l2' & pr & E1 & E2 & E3 & E4).
      exists acc', x, dl, g', d, lp, l2', pr. split; [exact E1|]. split; [exact E2|]. split; [exact E3|].
      change (nth_error (mevents i (accs ++ [b2z acc]) c (msaved i acc c l) :: gr) (S k)) with (nth_error gr k).
      rewrite E4. rewrite LL.
      change (firstn (S (S k)) ((acc, (m_X c, delta, g)) :: tr)) with ((acc, (m_X c, delta, g)) :: firstn (S k) tr).
      change (msaved_idx i ((acc, (m_X c, delta, g)) :: firstn (S k) tr)) with
        ((if saves prm i && acc then [O] else []) ++ map S (msaved_idx (i + 1) (firstn (S k) tr))).
      change (acc_trace ((acc, (m_X c, delta, g)) :: firstn (S k) tr)) with ([b2z acc] ++ acc_trace (firstn (S k) tr)).
      rewrite app_length, map_length, app_assoc, Nat.add_assoc. reflexivity.
Qed.

End Mala.
