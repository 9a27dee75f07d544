(** C27: suppress_stdout. *)
From Coq Require Import List ZArith Lia Bool String Arith.
From Verif Require Import PyBase Stdout.
Import ListNotations.
Notation length := List.length.
Open Scope nat_scope.

(** ** one thread *)

(** any body, returning or raising, and whatever it does to the world: stdout is
    what it was, the result or exception is the body's, and the file opened for
    the block is closed *)
Theorem C27_restores : forall {A} (body : act A) w,
  let inside := mkWorld (w_next w) (S (w_next w)) (w_closed w) (w_log w) in
  fst (suppress body w) = fst (body inside) /\
  w_stdout (snd (suppress body w)) = w_stdout w /\
  w_closed (snd (suppress body w)) = w_next w :: w_closed (snd (body inside)) /\
  w_log (snd (suppress body w)) = w_log (snd (body inside)) /\
  w_next (snd (suppress body w)) = w_next (snd (body inside)).
Proof.
  intros A body w inside. unfold suppress, open_devnull, set_stdout, close. cbn [w_next w_stdout w_closed w_log]. fold inside.
  destruct (body inside) as [r w3]. cbn. auto.
Qed.
Print Assumptions C27_restores.

(** ** programs: any nesting *)

(** file objects in use are below [w_next] *)
Definition wf (w : world) : Prop := w_stdout w < w_next w /\ forall h, In h (w_closed w) -> h < w_next w.
(** from w to w': stdout is the same object; only file objects created in
    between were closed; writes went to stdout or to such objects *)
Definition well_behaved (w w' : world) : Prop :=
  w_stdout w' = w_stdout w /\ w_next w <= w_next w' /\
  (exists c, w_closed w' = c ++ w_closed w /\ forall h, In h c -> w_next w <= h < w_next w') /\
  (exists l, w_log w' = w_log w ++ l /\ forall h s, In (h, s) l -> h = w_stdout w \/ w_next w <= h).

Lemma wb_refl : forall w, well_behaved w w.
Proof.
  intros w. split; [auto|]. split; [auto|]. split; [exists []; split; [auto|contradiction]|]. exists []. rewrite app_nil_r. split; [auto|contradiction].
Qed.
Lemma wb_trans : forall a b c, well_behaved a b -> well_behaved b c -> well_behaved a c.
Proof.
  intros a b c (P1 & P2 & (k & P3 & P3') & (l & P4 & P5)) (Q1 & Q2 & (k' & Q3 & Q3') & (l' & Q4 & Q5)).
  split; [congruence|]. split; [lia|]. split.
  - exists (k' ++ k). rewrite Q3, P3, app_assoc. split; [auto|]. intros h I. apply in_app_or in I. destruct I as [I|I]; [apply Q3' in I|apply P3' in I]; lia.
  - exists (l ++ l'). rewrite Q4, P4, app_assoc. split; [auto|]. intros h s I. apply in_app_or in I. destruct I as [I|I]; [eauto|].
    destruct (Q5 _ _ I) as [->|]; [auto|right; lia].
Qed.
Lemma wb_wf : forall a b, wf a -> well_behaved a b -> wf b.
Proof.
  intros a b (W1 & W2) (P1 & P2 & (k & P3 & P3') & _). split; [rewrite P1; lia|]. intros h I. rewrite P3 in I. apply in_app_or in I.
  destruct I as [I|I]; [apply P3' in I; lia|apply W2 in I; lia].
Qed.
Lemma inside_wf : forall w, wf w -> wf (mkWorld (w_next w) (S (w_next w)) (w_closed w) (w_log w)).
Proof. intros w (W1 & W2). split; cbn; [lia|]. intros h I. apply W2 in I. lia. Qed.
Lemma run_wb : forall p w, wf w -> well_behaved w (snd (run p w)).
Proof.
  induction p as [s|e|p IHp q IHq|p IHp q IHq|p IHp]; intros w W; cbn [run].
  - unfold print. destruct (existsb (Nat.eqb (w_stdout w)) (w_closed w)); cbn [snd]; [apply wb_refl|].
    split; [auto|]. split; [auto|]. split; [exists []; split; [auto|contradiction]|]. exists [(w_stdout w, s)]. split; [auto|].
    intros h s' [Q|[]]. injection Q as <- <-. auto.
  - apply wb_refl.
  - unfold seq_act. specialize (IHp w W). destruct (run p w) as [[u|e] w1]; cbn [snd] in *; [|exact IHp].
    eapply wb_trans; [exact IHp|]. apply IHq. eapply wb_wf; eauto.
  - unfold try_act. specialize (IHp w W). destruct (run p w) as [[u|e] w1]; cbn [snd] in *; [exact IHp|].
    eapply wb_trans; [exact IHp|]. apply IHq. eapply wb_wf; eauto.
  - destruct (C27_restores (run p) w) as (_ & R1 & R2 & R3 & R4).
    destruct (IHp _ (inside_wf w W)) as (P1 & P2 & (k & P3 & P3') & (l & P4 & P5)). cbn [w_next w_closed w_log w_stdout] in *.
    split; [exact R1|]. rewrite R4. split; [lia|]. split.
    + exists (w_next w :: k). rewrite R2, P3. split; [reflexivity|]. intros h [<-|I]; [lia|]. apply P3' in I. lia.
    + exists l. rewrite R3. split; [exact P4|]. intros h s I. destruct (P5 h s I) as [->|]; right; lia.
Qed.
(** the outcome depends only on whether stdout can be written to *)
Definition writable (w : world) : bool := negb (existsb (Nat.eqb (w_stdout w)) (w_closed w)).
Lemma existsb_closed : forall h l, existsb (Nat.eqb h) l = true <-> In h l.
Proof.
  intros h l. rewrite existsb_exists. split.
  - intros (x & I & E). apply Nat.eqb_eq in E. subst. exact I.
  - intros I. exists h. split; [exact I|apply Nat.eqb_refl].
Qed.
Lemma writable_wb : forall a b, wf a -> well_behaved a b -> writable a = true -> writable b = true.
Proof.
  intros a b (W1 & _) (P1 & _ & (k & P3 & P3') & _) H. unfold writable in *. apply negb_true_iff in H. apply negb_true_iff. apply not_true_iff_false.
  intros Q. apply existsb_closed in Q. rewrite P1, P3 in Q. apply in_app_or in Q. destruct Q as [Q|Q]; [apply P3' in Q; lia|].
  apply existsb_closed in Q. congruence.
Qed.
Lemma run_outcome : forall p w v, wf w -> wf v -> writable w = true -> writable v = true -> fst (run p w) = fst (run p v).
Proof.
  induction p as [s|e|p IHp q IHq|p IHp q IHq|p IHp]; intros w v W V Ow Ov; cbn [run].
  - unfold print. unfold writable in *. destruct (existsb (Nat.eqb (w_stdout w)) (w_closed w)); [discriminate|].
    destruct (existsb (Nat.eqb (w_stdout v)) (w_closed v)); [discriminate|]. reflexivity.
  - reflexivity.
  - unfold seq_act. specialize (IHp w v W V Ow Ov). assert (Bw := run_wb p w W). assert (Bv := run_wb p v V).
    destruct (run p w) as [r w1], (run p v) as [r' v1]. cbn [fst snd] in *. subst r'. destruct r; [|reflexivity].
    apply IHq; eauto using wb_wf, writable_wb.
  - unfold try_act. specialize (IHp w v W V Ow Ov). assert (Bw := run_wb p w W). assert (Bv := run_wb p v V).
    destruct (run p w) as [r w1], (run p v) as [r' v1]. cbn [fst snd] in *. subst r'. destruct r; [reflexivity|].
    apply IHq; eauto using wb_wf, writable_wb.
  - rewrite (proj1 (C27_restores (run p) w)), (proj1 (C27_restores (run p) v)).
    assert (N : forall w, wf w -> writable (mkWorld (w_next w) (S (w_next w)) (w_closed w) (w_log w)) = true).
    { intros x (X1 & X2). unfold writable. cbn. apply negb_true_iff, not_true_iff_false. intros Q. apply existsb_closed in Q. apply X2 in Q. lia. }
    apply IHp; auto using inside_wf.
Qed.

(** any program with any nesting of blocks, prints, exceptions and handlers *)
Theorem C27_nested : forall p w, wf w -> well_behaved w (snd (run p w)) /\ wf (snd (run p w)).
Proof. intros p w W. assert (B := run_wb p w W). split; [exact B|eapply wb_wf; eauto]. Qed.
Print Assumptions C27_nested.

(** inside the block nothing reaches a file object that existed before, and the
    block does not change what the program returns or raises *)
Theorem C27_silent : forall p w, wf w ->
  (exists l, w_log (snd (run (Suppress p) w)) = w_log w ++ l /\ forall h s, In (h, s) l -> w_next w <= h /\ h <> w_stdout w) /\
  (~ In (w_stdout w) (w_closed w) -> fst (run (Suppress p) w) = fst (run p w)).
Proof.
  intros p w W. cbn [run]. destruct (C27_restores (run p) w) as (R0 & R1 & R2 & R3 & R4). split.
  - destruct (run_wb p _ (inside_wf w W)) as (_ & _ & _ & (l & P4 & P5)). cbn [w_next w_log w_stdout] in *. exists l. rewrite R3. split; [exact P4|].
    intros h s I. destruct W as (W1 & _). destruct (P5 h s I) as [->|]; split; lia.
  - intros O. rewrite R0. apply run_outcome; auto using inside_wf.
    + unfold writable. cbn. apply negb_true_iff, not_true_iff_false. intros Q. apply existsb_closed in Q. destruct W as (_ & X2). apply X2 in Q. lia.
    + unfold writable. apply negb_true_iff, not_true_iff_false. intros Q. apply existsb_closed in Q. auto.
Qed.
Print Assumptions C27_silent.

(** map2alm, alm2map and mollview: healpy's result or exception, stdout restored *)
Theorem C27_users : forall {I A} (f : I -> act A) x w,
  let inside := mkWorld (w_next w) (S (w_next w)) (w_closed w) (w_log w) in
  (fst (map2alm f x w) = fst (f x inside) /\ w_stdout (snd (map2alm f x w)) = w_stdout w) /\
  (fst (alm2map f x w) = fst (f x inside) /\ w_stdout (snd (alm2map f x w)) = w_stdout w) /\
  forall (g : I -> act unit) gr, w_stdout (snd (mollview g gr x w)) = w_stdout w /\
    (forall w1 w2 r, g x inside = (Ok tt, w1) -> gr w1 = (r, w2) -> fst (mollview g gr x w) = r) /\
    (forall e w1, g x inside = (Raise e, w1) -> fst (mollview g gr x w) = Raise e).
Proof.
  intros I A f x w inside. destruct (C27_restores (f x) w) as (R0 & R1 & _). split; [split; auto|]. split; [split; auto|].
  intros g gr. destruct (C27_restores (seq_act (g x) (fun _ => gr)) w) as (Q0 & Q1 & _). split; [exact Q1|]. fold inside in Q0. split.
  - intros w1 w2 r E1 E2. unfold mollview. rewrite Q0. unfold seq_act. rewrite E1, E2. reflexivity.
  - intros e w1 E1. unfold mollview. rewrite Q0. unfold seq_act. rewrite E1. reflexivity.
Qed.
Print Assumptions C27_users.

Example C27_case :
  run (Seq (Print "a") (Seq (Try (Suppress (Seq (Print "b") (Seq (Suppress (Print "c")) (Fail ValueError)))) (Print "d")) (Print "e"))) (mkWorld 0 1 [] []) =
  (Ok tt, mkWorld 0 3 [1; 2] [(0, "a"); (1, "b"); (2, "c"); (0, "d"); (0, "e")]%string).
Proof. reflexivity. Qed.

(** ** threads *)

(** blocks that are executed one after the other or inside one another *)
Inductive properly_nested : list (nat * op) -> Prop :=
| pn_nil : properly_nested []
| pn_app : forall a b, properly_nested a -> properly_nested b -> properly_nested (a ++ b)
| pn_block : forall i s, properly_nested s -> ~ In i (map fst s) ->
    properly_nested ([(i, OOpen); (i, OSave); (i, OSet); (i, OBody)] ++ s ++ [(i, ORestore); (i, OClose)]).

Lemma run_sched_app : forall a b ts w, run_sched (a ++ b) ts w = let (ts1, w1) := run_sched a ts w in run_sched b ts1 w1.
Proof.
  induction a as [|[i o] a IH]; intros b ts w; [reflexivity|]. cbn [app run_sched]. destruct (step o (ts i) w) as [t w1]. apply IH.
Qed.
Lemma run_sched_other : forall s ts w i, ~ In i (map fst s) -> fst (run_sched s ts w) i = ts i.
Proof.
  induction s as [|[j o] s IH]; intros ts w i H; [reflexivity|]. cbn [run_sched map fst] in *. destruct (step o (ts j) w) as [t w1].
  rewrite IH by (intros Q; apply H; right; exact Q). destruct (Nat.eqb_spec i j) as [->|]; [exfalso; apply H; left; auto|reflexivity].
Qed.
Lemma step_next : forall o t w, w_next w <= w_next (snd (step o t w)).
Proof. intros o t w. destruct o; cbn; lia. Qed.
Lemma nested_keeps : forall s, properly_nested s -> forall ts w, w_stdout w < w_next w ->
  let w' := snd (run_sched s ts w) in
  w_stdout w' = w_stdout w /\ w_next w <= w_next w' /\ exists c, w_closed w' = c ++ w_closed w /\ forall h, In h c -> w_next w <= h.
Proof.
  induction 1 as [|a b Ha IHa Hb IHb|i s Hs IH NI]; intros ts w W.
  - cbn. split; [auto|]. split; [auto|]. exists []. split; [auto|contradiction].
  - rewrite run_sched_app. specialize (IHa ts w W). destruct (run_sched a ts w) as [ts1 w1]. cbn [snd] in IHa. destruct IHa as (A1 & A2 & c & A3 & A4).
    specialize (IHb ts1 w1 ltac:(lia)). cbn zeta in IHb. destruct IHb as (B1 & B2 & c' & B3 & B4). cbn zeta. split; [congruence|]. split; [lia|].
    exists (c' ++ c). rewrite B3, A3, app_assoc. split; [auto|]. intros h I. apply in_app_or in I. destruct I as [I|I]; [apply B4 in I; lia|auto].
  - rewrite run_sched_app. cbn [run_sched step open_devnull]. rewrite Nat.eqb_refl. cbn [l_old l_devnull]. rewrite run_sched_app.
    match goal with |- context [run_sched s ?t ?x] => set (ts1 := t); set (w1 := x) end.
    specialize (IH ts1 w1 ltac:(cbn; lia)). assert (O := run_sched_other s ts1 w1 i NI). destruct (run_sched s ts1 w1) as [ts2 w2]. cbn [snd fst] in *.
    destruct IH as (I1 & I2 & c & I3 & I4). cbn [run_sched step]. rewrite Nat.eqb_refl, O. unfold ts1. rewrite Nat.eqb_refl. cbn in *.
    split; [reflexivity|]. split; [lia|]. exists (w_next w :: c). rewrite I3. split; [reflexivity|]. intros h [<-|Q]; [lia|]. apply I4 in Q. lia.
Qed.
Theorem C27_nested_threads : forall s ts w, properly_nested s -> w_stdout w < w_next w ->
  let w' := snd (run_sched s ts w) in w_stdout w' = w_stdout w /\ (~ In (w_stdout w) (w_closed w) -> ~ In (w_stdout w') (w_closed w')).
Proof.
  intros s ts w P W. destruct (nested_keeps s P ts w W) as (A & _ & c & B & D). split; [exact A|]. intros NI Q. rewrite A, B in Q.
  apply in_app_or in Q. destruct Q as [Q|Q]; [apply D in Q; lia|auto].
Qed.
Print Assumptions C27_nested_threads.

(** two overlapping threads: both finish, stdout is a closed file and print fails *)
Theorem C27_threads_refuted : exists s ts w w', (forall i, steps_of i s = if Nat.ltb i 2 then block else []) /\
  ~ In (w_stdout w) (w_closed w) /\ snd (run_sched s ts w) = w' /\
  w_stdout w' <> w_stdout w /\ In (w_stdout w') (w_closed w') /\ forall str, fst (print str w') = Raise ValueError.
Proof.
  exists [(0, OOpen); (0, OSave); (0, OSet); (0, OBody); (1, OOpen); (1, OSave); (1, OSet); (1, OBody); (0, ORestore); (0, OClose); (1, ORestore); (1, OClose)],
    (fun _ => mkLocal 0 0), (mkWorld 0 1 [] []), (mkWorld 1 3 [2; 1] []).
  split; [|cbn; repeat split; auto]. intros [|[|i]]; reflexivity.
Qed.
Print Assumptions C27_threads_refuted.

(** ** all schedules of two threads *)
Fixpoint interleavings (a b : list (nat * op)) {struct a} : list (list (nat * op)) :=
  match a with
  | [] => [b]
  | x :: a' => (fix inner (b : list (nat * op)) : list (list (nat * op)) :=
      match b with
      | [] => [x :: a']
      | y :: b' => map (cons x) (interleavings a' (y :: b')) ++ map (cons y) (inner b')
      end) b
  end.
Definition of_thread (i : nat) (l : list op) : list (nat * op) := map (fun o => (i, o)) l.
Lemma interleavings_nil_r : forall a, interleavings a [] = [a].
Proof. destruct a; reflexivity. Qed.
Lemma interleavings_cons : forall x a y b, interleavings (x :: a) (y :: b) = map (cons x) (interleavings a (y :: b)) ++ map (cons y) (interleavings (x :: a) b).
Proof. reflexivity. Qed.
Lemma interleavings_complete : forall s, (forall p, In p s -> fst p < 2) ->
  In s (interleavings (of_thread 0 (steps_of 0 s)) (of_thread 1 (steps_of 1 s))).
Proof.
  induction s as [|[i o] s IH]; intros H; [left; reflexivity|].
  assert (IHs := IH (fun p Hp => H p (or_intror Hp))). assert (Hi := H (i, o) (or_introl eq_refl)). cbn in Hi.
  unfold steps_of in *. cbn [filter fst]. destruct i as [|[|i]]; [| |lia]; cbn [Nat.eqb]; cbn [map snd of_thread] in *.
  - fold (of_thread 0 (map snd (filter (fun p => fst p =? 0) s))) in *. set (a := of_thread 0 _) in *. set (b := of_thread 1 _) in *. clearbody a b.
    destruct b as [|y b]; [rewrite interleavings_nil_r in *; destruct IHs as [->|[]]; left; reflexivity|].
    rewrite interleavings_cons. apply in_or_app. left. apply in_map. exact IHs.
  - fold (of_thread 1 (map snd (filter (fun p => fst p =? 1) s))) in *. set (a := of_thread 0 _) in *. set (b := of_thread 1 _) in *. clearbody a b.
    destruct a as [|x a]; [cbn [interleavings] in *; destruct IHs as [->|[]]; left; reflexivity|].
    rewrite interleavings_cons. apply in_or_app. right. apply in_map. exact IHs.
Qed.

(** step (i, o) is performed before step (j, o') *)
Definition op_eqb (a b : op) : bool :=
  match a, b with OOpen, OOpen | OSave, OSave | OSet, OSet | OBody, OBody | ORestore, ORestore | OClose, OClose => true | _, _ => false end.
Fixpoint pos (x : nat * op) (s : list (nat * op)) : nat :=
  match s with [] => 0 | y :: s' => if (Nat.eqb (fst x) (fst y) && op_eqb (snd x) (snd y))%bool then 0 else S (pos x s') end.
Definition before (x y : nat * op) (s : list (nat * op)) : bool := Nat.ltb (pos x s) (pos y s).
(** the thread that restores last took its copy of stdout while the other one had it replaced *)
Definition late_copy (i j : nat) (s : list (nat * op)) : bool :=
  before (j, ORestore) (i, ORestore) s && before (j, OSet) (i, OSave) s && before (i, OSave) (j, ORestore) s.


(** file objects of a concrete run renamed to those of an arbitrary one *)
Section Rename.
  Variables (so n : nat) (ts : nat -> local).
  Let phi (h : nat) : nat :=
    if h =? 0 then so else if h <? 50 then n + (h - 1)
    else if h =? 50 then l_devnull (ts 0) else if h =? 51 then l_old (ts 0) else if h =? 52 then l_devnull (ts 1) else l_old (ts 1).
  Let tc (i : nat) : local := if i =? 0 then mkLocal 50 51 else mkLocal 52 53.
  Lemma rename_run : forall s (a b : nat -> local) wa wb, (forall p, In p s -> fst p < 2) ->
    (forall i, i < 2 -> b i = mkLocal (phi (l_devnull (a i))) (phi (l_old (a i)))) ->
    w_stdout wb = phi (w_stdout wa) -> w_next wb = n + (w_next wa - 1) -> 1 <= w_next wa -> w_next wa + length s < 50 ->
    forall cl, w_closed wb = map phi (w_closed wa) ++ cl ->
    w_stdout (snd (run_sched s b wb)) = phi (w_stdout (snd (run_sched s a wa))) /\
    w_closed (snd (run_sched s b wb)) = map phi (w_closed (snd (run_sched s a wa))) ++ cl.
  Proof.
    induction s as [|[i o] s IH]; intros a b wa wb Hs Hl E1 E2 E3 E4 cl E5; [split; assumption|].
    cbn [run_sched]. assert (Hi := Hs (i, o) (or_introl eq_refl)). cbn [fst] in Hi. assert (Hs' := fun p Hp => Hs p (or_intror Hp)).
    cbn [List.length] in E4. assert (Li := Hl i Hi).
    destruct o; cbn [step open_devnull]; rewrite ?Li; cbn [l_devnull l_old];
      (apply IH; [exact Hs'| | | | | |]; cbn [w_stdout w_next w_closed set_stdout close map app]; try lia; try (rewrite E5; reflexivity); auto;
       intros j Hj; destruct (Nat.eqb_spec j i); [|apply Hl; exact Hj]; cbn [l_devnull l_old]; f_equal; auto).
    unfold phi at 1. rewrite E2. destruct (Nat.eqb_spec (w_next wa) 0); [lia|]. destruct (Nat.ltb_spec (w_next wa) 50); lia.
  Qed.
  Definition sched_ok (s : list (nat * op)) : bool :=
    let w := snd (run_sched s (fun i => if i =? 0 then mkLocal 50 51 else mkLocal 52 53) (mkWorld 0 1 [] [])) in
    (Nat.ltb (w_stdout w) 50) && (Nat.eqb (length s) 12) &&
    (if (late_copy 0 1 s || late_copy 1 0 s)%bool then negb (Nat.eqb (w_stdout w) 0) && existsb (Nat.eqb (w_stdout w)) (w_closed w) else Nat.eqb (w_stdout w) 0).
  Lemma two_threads_one : forall s cl lg, so < n -> (forall p, In p s -> fst p < 2) -> sched_ok s = true ->
    let w' := snd (run_sched s ts (mkWorld so n cl lg)) in
    ((late_copy 0 1 s || late_copy 1 0 s)%bool = false -> w_stdout w' = so) /\
    ((late_copy 0 1 s || late_copy 1 0 s)%bool = true -> w_stdout w' <> so /\ In (w_stdout w') (w_closed w')).
  Proof.
    intros s cl lg H Hs Q. unfold sched_ok in Q. fold tc in Q.
    apply andb_prop in Q. destruct Q as (Q1 & Q3). apply andb_prop in Q1. destruct Q1 as (Q1 & Q2).
    apply Nat.ltb_lt in Q1. apply Nat.eqb_eq in Q2.
    destruct (rename_run s tc ts (mkWorld 0 1 [] []) (mkWorld so n cl lg) Hs) with (cl := cl) as (R1 & R2); cbn [w_stdout w_next w_closed]; try lia; auto.
    { intros i Hi. destruct i as [|[|]]; [destruct (ts 0); reflexivity|destruct (ts 1); reflexivity|lia]. }
    set (wc := snd (run_sched s tc (mkWorld 0 1 [] []))) in *. cbn zeta. split; intros L; rewrite L in Q3.
    - apply Nat.eqb_eq in Q3. rewrite R1, Q3. reflexivity.
    - apply andb_prop in Q3. destruct Q3 as (Q3 & Q4). apply negb_true_iff, Nat.eqb_neq in Q3. apply existsb_closed in Q4. split.
      + rewrite R1. unfold phi. destruct (Nat.eqb_spec (w_stdout wc) 0); [lia|]. destruct (Nat.ltb_spec (w_stdout wc) 50); lia.
      + rewrite R1, R2. apply in_or_app. left. apply in_map. exact Q4.
  Qed.
End Rename.
Lemma all_schedules_ok : forallb sched_ok (interleavings (of_thread 0 block) (of_thread 1 block)) = true.
Proof. vm_compute. reflexivity. Qed.

(** for every schedule of two threads, from every world: stdout is restored
    unless the thread that restores last copied it while the other had it
    replaced, and then it ends as a closed file *)
Theorem C27_two_threads : forall s ts w, steps_of 0 s = block -> steps_of 1 s = block -> (forall p, In p s -> fst p < 2) -> w_stdout w < w_next w ->
  let w' := snd (run_sched s ts w) in
  if (late_copy 0 1 s || late_copy 1 0 s)%bool then w_stdout w' <> w_stdout w /\ In (w_stdout w') (w_closed w')
  else w_stdout w' = w_stdout w.
Proof.
  intros s ts w B0 B1 Hs W. assert (I := interleavings_complete s Hs). rewrite B0, B1 in I.
  assert (A := all_schedules_ok). rewrite forallb_forall in A. specialize (A s I). destruct w as [so n cl lg]. cbn [w_stdout w_next] in *.
  destruct (two_threads_one so n ts s cl lg W Hs A) as (P1 & P2). cbn zeta in *.
  destruct (late_copy 0 1 s || late_copy 1 0 s)%bool; auto.
Qed.
Print Assumptions C27_two_threads.
(** both kinds of schedule exist: 924 in all *)
Example C27_case_counts : length (interleavings (of_thread 0 block) (of_thread 1 block)) = 924 /\
  length (filter (fun s => late_copy 0 1 s || late_copy 1 0 s)%bool (interleavings (of_thread 0 block) (of_thread 1 block))) <> 0.
Proof. split; [vm_compute; reflexivity|]. vm_compute. discriminate. Qed.
