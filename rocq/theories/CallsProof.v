(** Proofs about the operator calls of the sampler loops (Calls.v). *)
From Coq Require Import List ZArith Lia Bool Reals String.
From Coquelicot Require Import Coquelicot.
From Verif Require Import PyBase PyBaseFacts CVec Thresh Utils Prior Forward Sampler SamplerSpec SamplerFacts
  MyulaProof LoopProof ScheduleProof Mcmc Calls CallsSpec.
Import ListNotations.
Open Scope Z_scope.

(** ** private effects change nothing *)
Section Sim.
Context {V D K P E G I : Type}.
Variable pi : E -> G.
Definition down (w : world V D K P E) : world V D K P G := mkWorld (w_inst w) (pi (w_rng w)).
Definition sim {A} (m : @M V D K P E A) (m' : @M V D K P G A) : Prop :=
  forall w, m' (down w) = let (w', out) := m w in (down w', out).
Definition esim {A} (f : E -> res A * E) (f' : G -> res A * G) : Prop :=
  forall e, fst (f e) = fst (f' (pi e)) /\ pi (snd (f e)) = snd (f' (pi e)).

Lemma sim_ret {A} (a : A) : sim (ret a) (ret a).
Proof. intros w; reflexivity. Qed.
Lemma sim_throw {A} x : @sim A (throw x) (throw x).
Proof. intros w; reflexivity. Qed.
Lemma sim_nofuel {A} : @sim A no_fuel no_fuel.
Proof. intros w; reflexivity. Qed.
Lemma sim_bind {A B} (m : M A) m' (k : A -> M B) k' :
  sim m m' -> (forall a, sim (k a) (k' a)) -> sim (bind m k) (bind m' k').
Proof.
  intros H1 H2 w. unfold bind. rewrite (H1 w). destruct (m w) as [w1 [a|x|]]; try reflexivity. apply H2.
Qed.
Lemma sim_lift {A} (r : res A) : sim (lift r) (lift r).
Proof. intros w. destruct r; reflexivity. Qed.
Lemma sim_get : sim get_inst get_inst.
Proof. intros w; reflexivity. Qed.
Lemma sim_put s : sim (put_inst s) (put_inst s).
Proof. intros w; reflexivity. Qed.
Lemma sim_rng {A} f f' : @esim A f f' -> sim (with_rng f) (with_rng f').
Proof.
  intros H w. unfold with_rng. cbn [w_rng down w_inst]. destruct (H (w_rng w)) as (H1 & H2).
  destruct (f (w_rng w)) as [r e1]. destruct (f' (pi (w_rng w))) as [r' g1]. cbn in H1, H2. subst.
  destruct r'; reflexivity.
Qed.
Lemma sim_rng_lift {A} f (r : res A) : (forall e, fst (f e) = r /\ pi (snd (f e)) = pi e) ->
  sim (with_rng f) (lift r).
Proof.
  intros H w. unfold with_rng. destruct (H (w_rng w)) as (H1 & H2).
  destruct (f (w_rng w)) as [r1 e1]. cbn in H1, H2. subst. unfold down at 1. rewrite <- H2.
  destruct r; reflexivity.
Qed.
Lemma sim_print e : sim (print e) (print e).
Proof. unfold print. apply sim_bind; [apply sim_get|intros; apply sim_put]. Qed.
Lemma sim_store {A} get set j (v : res A) : sim (store get set j v) (store get set j v).
Proof.
  unfold store. apply sim_bind; [apply sim_get|intros s]. destruct (get s); [|apply sim_ret].
  apply sim_bind; [apply sim_lift|intros]. apply sim_bind; [apply sim_lift|intros; apply sim_put].
Qed.
Lemma sim_read {A} (get : inst V D K P -> option (list A)) k : sim (read_attr get k) (read_attr get k).
Proof.
  unfold read_attr. apply sim_bind; [apply sim_get|intros s]. destruct (get s); [apply sim_lift|apply sim_throw].
Qed.
Lemma sim_print_saved j : sim (print_saved j) (print_saved j).
Proof. unfold print_saved. repeat (apply sim_bind; [apply sim_read|intros]). apply sim_print. Qed.
Lemma sim_append_acc a : sim (append_acc a) (append_acc a).
Proof.
  unfold append_acc. apply sim_bind; [apply sim_get|intros s]. destruct (i_acc s); [apply sim_put|apply sim_throw].
Qed.
Lemma sim_append_delta : sim append_delta append_delta.
Proof.
  unfold append_delta. apply sim_bind; [apply sim_get|intros s]. destruct (i_deltas s); [apply sim_put|apply sim_throw].
Qed.

Variable o : ops V D K P E I.
Variable f : effects V D K E.
Variable o' : ops V D K P G I.
Variable prm : params.
Hypothesis Hinit : forall st, esim (o_init o st) (o_init o' st).
Hypothesis Hstep : forall d x p g, esim (o_step o d x p g) (o_step o' d x p g).
Hypothesis Hsk : forall d x, esim (o_skstep o d x) (o_skstep o' d x).
Hypothesis Hrand : forall e, fst (o_logrand o e) = fst (o_logrand o' (pi e)) /\ pi (snd (o_logrand o e)) = snd (o_logrand o' (pi e)).
Hypothesis Hf : forall x e, fst (x_forward f x e) = o_forward o' x /\ pi (snd (x_forward f x e)) = pi e.
Hypothesis Hg : forall x e, fst (x_gradg f x e) = o_gradg o' x /\ pi (snd (x_gradg f x e)) = pi e.
Hypothesis Hp : forall x e, fst (x_proxf f x e) = o_proxf o' x /\ pi (snd (x_proxf f x e)) = pi e.
Hypothesis Hl : forall x d e, fst (x_logpi f x d e) = o_logpi o' x d /\ pi (snd (x_logpi f x d e)) = pi e.
Hypothesis Hlt : o_logtrans o = o_logtrans o'.
Hypothesis Hadd : o_kadd o = o_kadd o'.
Hypothesis Hsub : o_ksub o = o_ksub o'.
Hypothesis Hltb : o_kltb o = o_kltb o'.
Hypothesis Htune : o_tune o = o_tune o'.
Hypothesis HrV : o_rowV o = o_rowV o'.
Hypothesis HrD : o_rowD o = o_rowD o'.
Hypothesis HrK : o_rowK o = o_rowK o'.

Lemma sim_tracking j x d a b c : sim (tracking o j x d a b c) (tracking o' j x d a b c).
Proof.
  unfold tracking. rewrite HrV, HrD, HrK. repeat (apply sim_bind; [apply sim_store|intros]). apply sim_store.
Qed.
Lemma sim_tune i : sim (tune_delta o i) (tune_delta o' i).
Proof.
  unfold tune_delta. rewrite Htune. apply sim_bind; [apply sim_read|intros]. apply sim_bind; [apply sim_get|intros; apply sim_put].
Qed.
Lemma sim_initial st : sim (xinitial_sample o f st) (initial_sample o' st).
Proof.
  unfold xinitial_sample, initial_sample. apply sim_bind; [apply sim_rng, Hinit|intros].
  apply sim_bind; [apply sim_rng_lift; intros; apply Hf|intros; apply sim_ret].
Qed.

Ltac sim_step := first
  [ apply sim_ret | apply sim_tracking | apply sim_print_saved | apply sim_print | apply sim_get | apply sim_put
  | apply sim_append_acc | apply sim_append_delta | apply sim_tune | apply sim_lift | apply sim_initial
  | apply sim_rng_lift; intros; first [apply Hf|apply Hg|apply Hp|apply Hl]
  | apply sim_rng; first [apply Hstep|apply Hsk]
  | apply sim_bind; [|intros]
  | match goal with
    | |- sim (match ?b with true => _ | false => _ end) _ => destruct b
    | |- sim (match ?p with (_, _) => _ end) _ => destruct p
    end ].

Lemma sim_myula_body i j x d : sim (xmyula_body o f prm i j x d) (myula_body o' prm i j x d).
Proof. unfold xmyula_body, myula_body. repeat sim_step. Qed.

Lemma sim_myula_loop fuel : forall i j x d, sim (xmyula_loop o f prm fuel i j x d) (myula_loop o' prm fuel i j x d).
Proof.
  induction fuel as [|k IH]; intros i j x d; simpl; destruct (j <? p_nsamples prm).
  - apply sim_nofuel. - apply sim_print.
  - apply sim_bind; [apply sim_myula_body|]. intros [[j' x'] d']. apply IH.
  - apply sim_print.
Qed.

Lemma sim_myula fuel st : sim (xmyula_run o f prm fuel st) (myula_run o' prm fuel st).
Proof. unfold xmyula_run, myula_run. apply sim_bind; [apply sim_initial|]. intros [x d]. apply sim_myula_loop. Qed.

Lemma sim_skrock_body i j x d : sim (xskrock_body o f prm i j x d) (skrock_body o' prm i j x d).
Proof. unfold xskrock_body, skrock_body. repeat sim_step. Qed.

Lemma sim_skrock_loop fuel : forall i j x d, sim (xskrock_loop o f prm fuel i j x d) (skrock_loop o' prm fuel i j x d).
Proof.
  induction fuel as [|k IH]; intros i j x d; simpl; destruct (j <? p_nsamples prm).
  - apply sim_nofuel. - apply sim_print.
  - apply sim_bind; [apply sim_skrock_body|]. intros [[j' x'] d']. apply IH.
  - apply sim_print.
Qed.

Lemma sim_skrock fuel st : sim (xskrock_run o f prm fuel st) (skrock_run o' prm fuel st).
Proof. unfold xskrock_run, skrock_run. apply sim_bind; [apply sim_initial|]. intros [x d]. apply sim_skrock_loop. Qed.

Lemma sim_pxmala_body tune i j c : sim (xpxmala_body o f prm tune i j c) (pxmala_body o' prm tune i j c).
Proof.
  unfold xpxmala_body, pxmala_body. rewrite Hlt, Hadd, Hsub, Hltb.
  apply sim_bind; [apply sim_get|intros s]. apply sim_bind; [apply sim_rng, Hstep|intros xp].
  apply sim_bind; [apply sim_rng_lift; intros; apply Hf|intros dp].
  apply sim_bind; [apply sim_rng_lift; intros; apply Hg|intros gp].
  apply sim_bind; [apply sim_rng_lift; intros; apply Hp|intros pp].
  apply sim_bind; [apply sim_lift|intros l1]. apply sim_bind; [apply sim_lift|intros l2].
  apply sim_bind; [apply sim_rng_lift; intros; apply Hl|intros [[a b] c0]]. cbv zeta.
  apply sim_bind.
  { apply sim_rng. intros e. destruct (Hrand e) as (H1 & H2).
    destruct (o_logrand o e), (o_logrand o' (pi e)); cbn in *; subst; split; reflexivity. }
  intros lu. destruct (o_kltb o' lu _); repeat sim_step; rewrite ?andb_true_r, ?andb_false_r; repeat sim_step.
Qed.

Lemma sim_pxmala_loop tune fuel : forall i j c, sim (xpxmala_loop o f prm tune fuel i j c) (pxmala_loop o' prm tune fuel i j c).
Proof.
  induction fuel as [|k IH]; intros i j c; simpl; destruct (j <? p_nsamples prm).
  - apply sim_nofuel. - apply sim_print.
  - apply sim_bind; [apply sim_pxmala_body|]. intros [j' c']. apply IH.
  - apply sim_print.
Qed.

Lemma sim_pxmala tune fuel st : sim (xpxmala_run o f prm tune fuel st) (pxmala_run o' prm tune fuel st).
Proof.
  unfold xpxmala_run, pxmala_run. repeat sim_step. apply sim_pxmala_loop.
Qed.
End Sim.

(** ** the calls made *)
Section Emit.
Context {V D K P E I : Type}.
Variable tr : E -> list meth.
Notation world := (world V D K P E).

(** [m] makes the calls [l], or a beginning of them if it does not return; its
    result satisfies [Q] *)
Definition emits {A} (m : @M V D K P E A) (l : list meth) (Q : A -> Prop) : Prop :=
  forall w w' out, m w = (w', out) ->
    exists l1, tr (w_rng w') = tr (w_rng w) ++ l1 /\ begins l1 l /\ (forall a, out = Ret a -> l1 = l /\ Q a).

Definition eemits {A} (f : E -> res A * E) (l : list meth) : Prop :=
  forall e, exists l1, tr (snd (f e)) = tr e ++ l1 /\ begins l1 l /\ (forall a, fst (f e) = Ok a -> l1 = l).

Lemma begins_refl l : begins l l.
Proof. exists []. now rewrite app_nil_r. Qed.
Lemma begins_nil l : begins [] l.
Proof. now exists l. Qed.
Lemma begins_app l m m' : begins m m' -> begins (l ++ m) (l ++ m').
Proof. intros (r & ->). exists r. now rewrite app_assoc. Qed.
Lemma begins_l l m m' : begins l m -> begins l (m ++ m').
Proof. intros (r & ->). exists (r ++ m'). now rewrite app_assoc. Qed.

Lemma emits_bind {A B} (m : @M V D K P E A) (k : A -> M B) l l' Q Q' :
  emits m l Q -> (forall a, Q a -> emits (k a) l' Q') -> emits (bind m k) (l ++ l') Q'.
Proof.
  intros H1 H2 w w' out Hw. unfold bind in Hw. destruct (m w) as [w1 o1] eqn:E1.
  destruct (H1 _ _ _ E1) as (l1 & T1 & B1 & R1). destruct o1 as [a|x|].
  - destruct (R1 a eq_refl) as (-> & Qa). destruct (H2 a Qa _ _ _ Hw) as (l2 & T2 & B2 & R2).
    exists (l ++ l2). rewrite T2, T1, app_assoc. split; [reflexivity|]. split; [now apply begins_app|].
    intros b Hb. destruct (R2 b Hb) as (-> & HQ). now split.
  - inversion Hw; subst. exists l1. split; [exact T1|]. split; [now apply begins_l|discriminate].
  - inversion Hw; subst. exists l1. split; [exact T1|]. split; [now apply begins_l|discriminate].
Qed.

Lemma emits_silent {A} (m : @M V D K P E A) (Q : A -> Prop) :
  (forall w, w_rng (fst (m w)) = w_rng w) -> (forall w a, snd (m w) = Ret a -> Q a) -> emits m [] Q.
Proof.
  intros H HQ w w' out Hw. exists []. specialize (H w). specialize (HQ w). rewrite Hw in H, HQ. cbn in H, HQ. rewrite H, app_nil_r.
  split; [reflexivity|]. split; [apply begins_nil|]. intros a Ha. split; [reflexivity|]. now apply HQ.
Qed.
Lemma emits_ret {A} (a : A) (Q : A -> Prop) : Q a -> emits (ret a) [] Q.
Proof. intros H. apply emits_silent; [reflexivity|]. intros w b E1. inversion E1; now subst. Qed.
Lemma emits_weaken {A} (m : @M V D K P E A) l (Q Q' : A -> Prop) : emits m l Q -> (forall a, Q a -> Q' a) -> emits m l Q'.
Proof.
  intros H HQ w w' out Hw. destruct (H _ _ _ Hw) as (l1 & T & B & R). exists l1. split; [exact T|]. split; [exact B|].
  intros a Ha. destruct (R a Ha). split; auto.
Qed.
Lemma emits_rng {A} (f : E -> res A * E) l : eemits f l -> emits (with_rng f) l (fun _ => True).
Proof.
  intros H w w' out Hw. unfold with_rng in Hw. destruct (H (w_rng w)) as (l1 & T & B & R).
  destruct (f (w_rng w)) as [r e1]. cbn in T, R. destruct r as [a|x]; inversion Hw; subst; exists l1; (split; [exact T|]);
    (split; [exact B|]).
  - intros b Hb. split; [exact (R a eq_refl)|trivial].
  - discriminate.
Qed.

(** computations that do not touch the environment *)
Definition silent {A} (m : @M V D K P E A) : Prop := forall w, w_rng (fst (m w)) = w_rng w.
Lemma silent_emits {A} (m : @M V D K P E A) : silent m -> emits m [] (fun _ => True).
Proof. intros H. now apply emits_silent. Qed.
Lemma silent_bind {A B} (m : @M V D K P E A) (k : A -> M B) : silent m -> (forall a, silent (k a)) -> silent (bind m k).
Proof.
  intros H1 H2 w. unfold bind. specialize (H1 w). destruct (m w) as [w1 [a|x|]]; cbn in *; [|exact H1|exact H1].
  rewrite H2. exact H1.
Qed.
Lemma silent_ret {A} (a : A) : silent (ret a). Proof. intros w; reflexivity. Qed.
Lemma silent_throw {A} x : @silent A (throw x). Proof. intros w; reflexivity. Qed.
Lemma silent_lift {A} (r : res A) : silent (lift r). Proof. intros w; destruct r; reflexivity. Qed.
Lemma silent_get : silent get_inst. Proof. intros w; reflexivity. Qed.
Lemma silent_put s : silent (put_inst s). Proof. intros w; reflexivity. Qed.
Lemma silent_print e : silent (print e).
Proof. unfold print. apply silent_bind; [apply silent_get|intros; apply silent_put]. Qed.
Lemma silent_store {A} get set j (v : res A) : silent (store get set j v).
Proof.
  unfold store. apply silent_bind; [apply silent_get|intros s]. destruct (get s); [|apply silent_ret].
  apply silent_bind; [apply silent_lift|intros]. apply silent_bind; [apply silent_lift|intros; apply silent_put].
Qed.
Lemma silent_read {A} (get : inst V D K P -> option (list A)) k : silent (read_attr get k).
Proof.
  unfold read_attr. apply silent_bind; [apply silent_get|intros s]. destruct (get s); [apply silent_lift|apply silent_throw].
Qed.
Lemma silent_print_saved j : silent (print_saved j).
Proof. unfold print_saved. repeat (apply silent_bind; [apply silent_read|intros]). apply silent_print. Qed.

Variable o : ops V D K P E I.
Variable f : effects V D K E.
Variable prm : params.
Variable sk : list meth.
Hypothesis Hinit : forall st, eemits (o_init o st) [].
Hypothesis Hstep : forall d x p g, eemits (o_step o d x p g) [].
Hypothesis Hsk : forall d x, eemits (o_skstep o d x) sk.
Hypothesis Hrand : forall e, tr (snd (o_logrand o e)) = tr e.
Hypothesis Hf : forall x, eemits (x_forward f x) [MForward].
Hypothesis Hg : forall x, eemits (x_gradg f x) [MGradg].
Hypothesis Hp : forall x, eemits (x_proxf f x) [MProxf].
Hypothesis Hl : forall x d, eemits (x_logpi f x d) [MPrior].

Lemma silent_tracking j x d a b c : silent (tracking o j x d a b c).
Proof. unfold tracking. repeat (apply silent_bind; [apply silent_store|intros]). apply silent_store. Qed.

Lemma emits_initial st : emits (xinitial_sample o f st) [MForward] (fun _ => True).
Proof.
  change [MForward] with ([] ++ [MForward] ++ [] : list meth). unfold xinitial_sample.
  apply (emits_bind _ _ _ _ (fun _ => True)); [apply emits_rng, Hinit|intros].
  apply (emits_bind _ _ _ _ (fun _ => True)); [apply emits_rng, Hf|intros]. now apply emits_ret.
Qed.

(** the calls of iterations i .. i+k-1 *)
Fixpoint trace_from (blk : list meth) (i : Z) (k : nat) : list meth :=
  match k with
  | O => []
  | S m => (blk ++ if saves prm i then [MPrior] else []) ++ trace_from blk (i + 1) m
  end.

Lemma emits_tail {A B} (m : @M V D K P E A) (k : A -> M B) l Q Q' :
  emits m l Q -> (forall a, Q a -> emits (k a) [] Q') -> emits (bind m k) l Q'.
Proof. intros. rewrite <- (app_nil_r l). now apply emits_bind with Q. Qed.

Lemma emits_save i j x d : p_nburn prm <= i ->
  emits (if grid_hit prm i then
           bind (with_rng (x_logpi f x d)) (fun t => let '(a, b, c) := t in
             bind (tracking o j x d a b c) (fun _ => ret (j + 1)))
         else ret j)
        (if saves prm i then [MPrior] else [])
        (fun j' => j' = j + if saves prm i then 1 else 0).
Proof.
  intros Hb. unfold saves. apply Z.leb_le in Hb. rewrite Hb. cbn [andb]. destruct (grid_hit prm i).
  - apply (emits_tail _ _ _ (fun _ => True)); [apply emits_rng, Hl|]. intros [[a b] c] _.
    apply (emits_tail _ _ _ (fun _ => True)); [apply silent_emits, silent_tracking|intros]. now apply emits_ret.
  - apply emits_ret. lia.
Qed.

Lemma emits_myula_body i j x d :
  emits (xmyula_body o f prm i j x d) ([MGradg; MProxf; MForward] ++ if saves prm i then [MPrior] else [])
        (fun r => fst (fst r) = j + if saves prm i then 1 else 0).
Proof.
  unfold xmyula_body. change ([MGradg; MProxf; MForward] ++ ?l) with ([MGradg] ++ [MProxf] ++ [] ++ [] ++ [MForward] ++ l).
  apply (emits_bind _ _ _ _ (fun _ => True)); [apply emits_rng, Hg|intros gr _].
  apply (emits_bind _ _ _ _ (fun _ => True)); [apply emits_rng, Hp|intros p _].
  apply (emits_bind _ _ _ _ (fun _ => True)); [apply silent_emits, silent_get|intros s _].
  apply (emits_bind _ _ _ _ (fun _ => True)); [apply emits_rng, Hstep|intros xp _].
  apply (emits_bind _ _ _ _ (fun _ => True)); [apply emits_rng, Hf|intros dp _].
  destruct (p_nburn prm <=? i) eqn:Eb.
  - apply Z.leb_le in Eb. eapply emits_tail; [apply emits_save, Eb|]. intros j' Hj.
    apply (emits_tail _ _ _ (fun _ => True)).
    { apply silent_emits. destruct (progress_due prm i); [apply silent_print_saved|apply silent_ret]. }
    intros _ _. apply emits_ret. exact Hj.
  - unfold saves. rewrite Eb. cbn [andb]. apply (emits_tail _ _ _ (fun _ => True)).
    { apply silent_emits. destruct (progress_due prm i); [apply silent_print|apply silent_ret]. }
    intros _ _. apply emits_ret. cbn. lia.
Qed.

Lemma emits_skrock_body i j x d :
  emits (xskrock_body o f prm i j x d) ((sk ++ [MForward]) ++ if saves prm i then [MPrior] else [])
        (fun r => fst (fst r) = j + if saves prm i then 1 else 0).
Proof.
  unfold xskrock_body. rewrite <- app_assoc.
  match goal with |- emits _ ?l _ => change l with ([] ++ l) end.
  apply (emits_bind _ _ _ _ (fun _ => True)); [apply silent_emits, silent_get|intros s _].
  apply (emits_bind _ _ _ _ (fun _ => True)); [apply emits_rng, Hsk|intros xp _].
  apply (emits_bind _ _ _ _ (fun _ => True)); [apply emits_rng, Hf|intros dp _].
  eapply emits_tail with (Q := fun j' => j' = j + if saves prm i then 1 else 0).
  - destruct (p_nburn prm <=? i) eqn:Eb.
    + apply Z.leb_le in Eb. apply emits_save, Eb.
    + unfold saves. rewrite Eb. cbn [andb]. apply emits_ret. lia.
  - intros j' Hj. apply (emits_tail _ _ _ (fun _ => True)).
    { apply silent_emits. destruct (progress_due prm i); [apply silent_print_saved|apply silent_ret]. }
    intros _ _. apply emits_ret. exact Hj.
Qed.

(** number of saved iterations among i .. i+k-1 *)
Fixpoint nsaved (i : Z) (k : nat) : Z :=
  match k with O => 0 | S m => (if saves prm i then 1 else 0) + nsaved (i + 1) m end.

Definition finished (i j : Z) (k : nat) : Prop :=
  (k = O /\ p_nsamples prm <= j) \/
  (exists m, k = S m /\ saves prm (i + Z.of_nat m) = true /\ j + nsaved i m < p_nsamples prm <= j + nsaved i k).

Lemma loop_emits {St} (body : Z -> Z -> St -> @M V D K P E (Z * St)) (loop : nat -> Z -> Z -> St -> @M V D K P E unit) blk :
  (forall i j s, emits (body i j s) (blk ++ if saves prm i then [MPrior] else [])
                       (fun r => fst r = j + if saves prm i then 1 else 0)) ->
  (forall fuel i j s w, loop fuel i j s w =
     (if j <? p_nsamples prm then
        match fuel with
        | O => no_fuel
        | S k => bind (body i j s) (fun r => loop k (i + 1) (fst r) (snd r))
        end
      else print EvDone) w) ->
  forall fuel i j s w w' out, loop fuel i j s w = (w', out) ->
    exists k l1, tr (w_rng w') = tr (w_rng w) ++ l1 /\ begins l1 (trace_from blk i k) /\
      (forall u, out = Ret u -> l1 = trace_from blk i k /\ finished i j k).
Proof.
  intros HB HL. induction fuel as [|k IH]; intros i j s w w' out Hw; rewrite HL in Hw;
    destruct (j <? p_nsamples prm) eqn:Ej.
  - inversion Hw; subst. exists O, []. rewrite app_nil_r. split; [reflexivity|]. split; [apply begins_nil|discriminate].
  - apply Z.ltb_ge in Ej. exists O, []. rewrite app_nil_r. inversion Hw; subst. split; [reflexivity|].
    split; [apply begins_nil|]. intros _ _. split; [reflexivity|]. left. split; [reflexivity|exact Ej].
  - apply Z.ltb_lt in Ej. unfold bind in Hw. destruct (body i j s w) as [w1 o1] eqn:E1.
    destruct (HB i j s _ _ _ E1) as (l1 & T1 & B1 & R1). destruct o1 as [r|x|].
    + destruct (R1 r eq_refl) as (-> & Hj). destruct (IH _ _ _ _ _ _ Hw) as (n & l2 & T2 & B2 & R2).
      exists (S n), ((blk ++ if saves prm i then [MPrior] else []) ++ l2). rewrite T2, T1, <- app_assoc. split; [reflexivity|].
      split; [cbn [trace_from]; now apply begins_app|]. intros u Hu. destruct (R2 u Hu) as (-> & HF). split; [reflexivity|].
      right. exists n. split; [reflexivity|]. rewrite Hj in HF. cbn [nsaved].
      destruct HF as [(-> & Hn)|(m & -> & Hs & Hn)].
      * cbn [nsaved Z.of_nat]. rewrite !Z.add_0_r. destruct (saves prm i); [split; [reflexivity|lia]|lia].
      * replace (i + Z.of_nat (S m)) with (i + 1 + Z.of_nat m) by lia. split; [exact Hs|].
        change (nsaved i (S m)) with ((if saves prm i then 1 else 0) + nsaved (i + 1) m). lia.
    + inversion Hw; subst. exists 1%nat, l1. split; [exact T1|].
      split; [cbn [trace_from]; now apply begins_l|discriminate].
    + inversion Hw; subst. exists 1%nat, l1. split; [exact T1|].
      split; [cbn [trace_from]; now apply begins_l|discriminate].
  - apply Z.ltb_ge in Ej. exists O, []. rewrite app_nil_r. inversion Hw; subst. split; [reflexivity|].
    split; [apply begins_nil|]. intros _ _. split; [reflexivity|]. left. split; [reflexivity|exact Ej].
Qed.

Lemma myula_loop_emits fuel i j x d w w' out : xmyula_loop o f prm fuel i j x d w = (w', out) ->
  exists k l1, tr (w_rng w') = tr (w_rng w) ++ l1 /\ begins l1 (trace_from [MGradg; MProxf; MForward] i k) /\
    (forall u, out = Ret u -> l1 = trace_from [MGradg; MProxf; MForward] i k /\ finished i j k).
Proof.
  intros Hw.
  apply (loop_emits (fun i j (s : V * D) => bind (xmyula_body o f prm i j (fst s) (snd s))
            (fun r => let '(j', x', d') := r in ret (j', (x', d'))))
          (fun fuel i j s => xmyula_loop o f prm fuel i j (fst s) (snd s))) with (s := (x, d)) (fuel := fuel); [| |exact Hw].
  - intros i0 j0 s. eapply emits_tail; [apply emits_myula_body|]. intros [[j' x'] d'] Hj. apply emits_ret. exact Hj.
  - intros fuel0 i0 j0 [x0 d0] w0. destruct fuel0; simpl; destruct (j0 <? p_nsamples prm); try reflexivity.
    unfold bind. destruct (xmyula_body o f prm i0 j0 x0 d0 w0) as [w1 [[[j' x'] d']|e|]]; reflexivity.
Qed.

Lemma skrock_loop_emits fuel i j x d w w' out : xskrock_loop o f prm fuel i j x d w = (w', out) ->
  exists k l1, tr (w_rng w') = tr (w_rng w) ++ l1 /\ begins l1 (trace_from (sk ++ [MForward]) i k) /\
    (forall u, out = Ret u -> l1 = trace_from (sk ++ [MForward]) i k /\ finished i j k).
Proof.
  intros Hw.
  apply (loop_emits (fun i j (s : V * D) => bind (xskrock_body o f prm i j (fst s) (snd s))
            (fun r => let '(j', x', d') := r in ret (j', (x', d'))))
          (fun fuel i j s => xskrock_loop o f prm fuel i j (fst s) (snd s))) with (s := (x, d)) (fuel := fuel); [| |exact Hw].
  - intros i0 j0 s. eapply emits_tail; [apply emits_skrock_body|]. intros [[j' x'] d'] Hj. apply emits_ret. exact Hj.
  - intros fuel0 i0 j0 [x0 d0] w0. destruct fuel0; simpl; destruct (j0 <? p_nsamples prm); try reflexivity.
    unfold bind. destruct (xskrock_body o f prm i0 j0 x0 d0 w0) as [w1 [[[j' x'] d']|e|]]; reflexivity.
Qed.

(** *** PxMALA *)

Definition accs {A} (m : @M V D K P E A) (n : nat) : Prop :=
  forall w w' a l, m w = (w', Ret a) -> i_acc (w_inst w) = Some l ->
    exists l', i_acc (w_inst w') = Some (l ++ l') /\ List.length l' = n.
Lemma accs_bind {A B} (m : @M V D K P E A) (k : A -> M B) n n' :
  accs m n -> (forall a, accs (k a) n') -> accs (bind m k) (n + n').
Proof.
  intros H1 H2 w w' b l Hw Ha. unfold bind in Hw. destruct (m w) as [w1 [a|x|]] eqn:E1; try discriminate.
  destruct (H1 _ _ _ _ E1 Ha) as (l1 & A1 & L1). destruct (H2 a _ _ _ _ Hw A1) as (l2 & A2 & L2).
  exists (l1 ++ l2). rewrite A2, app_assoc, app_length. split; [reflexivity|lia].
Qed.
Definition keeps {A} (m : @M V D K P E A) : Prop := forall w, i_acc (w_inst (fst (m w))) = i_acc (w_inst w).
Lemma keeps_accs {A} (m : @M V D K P E A) : keeps m -> accs m 0.
Proof.
  intros H w w' a l Hw Ha. exists []. specialize (H w). rewrite Hw in H. cbn in H. rewrite H, app_nil_r. now split.
Qed.
Lemma keeps_bind {A B} (m : @M V D K P E A) (k : A -> M B) : keeps m -> (forall a, keeps (k a)) -> keeps (bind m k).
Proof.
  intros H1 H2 w. unfold bind. specialize (H1 w). destruct (m w) as [w1 [a|x|]]; cbn in *; [|exact H1|exact H1].
  rewrite H2. exact H1.
Qed.
Lemma keeps_ret {A} (a : A) : keeps (ret a). Proof. intros w; reflexivity. Qed.
Lemma keeps_lift {A} (r : res A) : keeps (lift r). Proof. intros w; destruct r; reflexivity. Qed.
Lemma keeps_rng {A} (g : E -> res A * E) : keeps (with_rng g).
Proof. intros w. unfold with_rng. destruct (g (w_rng w)) as [[a|x] e]; reflexivity. Qed.
Lemma keeps_print e : keeps (print e). Proof. intros w; reflexivity. Qed.
Lemma keeps_get : keeps get_inst. Proof. intros w; reflexivity. Qed.
Lemma keeps_store {A} get (set : option (list A) -> inst V D K P -> inst V D K P) j v :
  (forall x s, i_acc (set x s) = i_acc s) -> keeps (store get set j v).
Proof.
  intros Hset w. unfold store, bind, get_inst. destruct (get (w_inst w)) as [l0|]; [|reflexivity].
  destruct v as [a|x]; [|reflexivity]. cbn. destruct (py_setitem l0 j a); [|reflexivity]. cbn. apply Hset.
Qed.
Lemma keeps_tracking j x d a b c : keeps (tracking o j x d a b c).
Proof. unfold tracking. repeat (apply keeps_bind; [now apply keeps_store|intros]). now apply keeps_store. Qed.
Lemma keeps_tune i : keeps (bind (tune_delta o i) (fun _ => append_delta)).
Proof.
  intros w. unfold tune_delta, append_delta, read_attr, bind, get_inst, put_inst, lift.
  destruct (i_acc (w_inst w)) as [l|] eqn:E1; [|exact E1]. destruct (py_index l i); [|exact E1]. cbn.
  destruct (i_deltas (w_inst w)); cbn; exact E1.
Qed.
Lemma accs_append a : accs (append_acc a) 1.
Proof.
  intros w w' u l Hw Ha. unfold append_acc, bind, get_inst, put_inst in Hw. rewrite Ha in Hw. inversion Hw; subst.
  exists [a]. split; reflexivity.
Qed.

Lemma accs_pxmala_body tune i j c : accs (xpxmala_body o f prm tune i j c) 1.
Proof.
  unfold xpxmala_body. change 1%nat with (0 + (0 + (0 + (0 + (0 + (0 + (0 + (0 + (0 + (1 + (0 + (0 + (0 + 0)))))))))))))%nat.
  apply accs_bind; [apply keeps_accs, keeps_get|intros s]. do 4 (apply accs_bind; [apply keeps_accs, keeps_rng|intros ?]).
  do 2 (apply accs_bind; [apply keeps_accs, keeps_lift|intros ?]).
  apply accs_bind; [apply keeps_accs, keeps_rng|intros [[l1 l2] l3]]. cbv zeta.
  apply accs_bind; [apply keeps_accs, keeps_rng|intros lu].
  apply accs_bind.
  { destruct (o_kltb o lu _); change 1%nat with (1 + 0)%nat; (apply accs_bind; [apply accs_append|intros; apply keeps_accs, keeps_ret]). }
  intros c'. apply accs_bind. { apply keeps_accs. destruct tune; [apply keeps_tune|apply keeps_ret]. }
  intros _. apply accs_bind.
  { apply keeps_accs. destruct (p_nburn prm <=? i); [|apply keeps_ret]. destruct (grid_hit prm i && _); [|apply keeps_ret].
    apply keeps_bind; [apply keeps_tracking|intros; apply keeps_ret]. }
  intros j'. apply accs_bind.
  { apply keeps_accs. destruct (progress_due prm i); [|apply keeps_ret].
    apply keeps_bind; [apply keeps_get|intros; apply keeps_print]. }
  intros _. apply keeps_accs, keeps_ret.
Qed.

Lemma silent_append_acc a : silent (append_acc a).
Proof. intros w. unfold append_acc, bind, get_inst. destruct (i_acc (w_inst w)); reflexivity. Qed.
Lemma silent_tune i : silent (bind (tune_delta o i) (fun _ => append_delta)).
Proof.
  apply silent_bind.
  - unfold tune_delta. apply silent_bind; [apply silent_read|intros]. apply silent_bind; [apply silent_get|intros; apply silent_put].
  - intros _ w. unfold append_delta, bind, get_inst. destruct (i_deltas (w_inst w)); reflexivity.
Qed.

Definition four : list meth := [MForward; MGradg; MProxf; MPrior].

Lemma emits_pxmala_body tune i j c : emits (xpxmala_body o f prm tune i j c) four (fun _ => True).
Proof.
  unfold xpxmala_body.
  change four with ([] ++ [] ++ [MForward] ++ [MGradg] ++ [MProxf] ++ [] ++ [] ++ [MPrior] : list meth).
  apply (emits_bind _ _ _ _ (fun _ => True)); [apply silent_emits, silent_get|intros s _].
  apply (emits_bind _ _ _ _ (fun _ => True)); [apply emits_rng, Hstep|intros xp _].
  apply (emits_bind _ _ _ _ (fun _ => True)); [apply emits_rng, Hf|intros dp _].
  apply (emits_bind _ _ _ _ (fun _ => True)); [apply emits_rng, Hg|intros gp _].
  apply (emits_bind _ _ _ _ (fun _ => True)); [apply emits_rng, Hp|intros pp _].
  apply (emits_bind _ _ _ _ (fun _ => True)); [apply silent_emits, silent_lift|intros l1 _].
  apply (emits_bind _ _ _ _ (fun _ => True)); [apply silent_emits, silent_lift|intros l2 _].
  apply (emits_tail _ _ _ (fun _ => True)); [apply emits_rng, Hl|intros [[a b] c0] _]. cbv zeta.
  apply (emits_tail _ _ _ (fun _ => True)).
  { apply emits_rng. intros e. specialize (Hrand e). destruct (o_logrand o e) as [lu e1]. cbn in *.
    exists []. rewrite app_nil_r. split; [exact Hrand|]. split; [apply begins_nil|reflexivity]. }
  intros lu _. apply silent_emits. apply silent_bind.
  { destruct (o_kltb o lu _); (apply silent_bind; [apply silent_append_acc|intros; apply silent_ret]). }
  intros c'. apply silent_bind. { destruct tune; [apply silent_tune|apply silent_ret]. }
  intros _. apply silent_bind.
  { destruct (p_nburn prm <=? i); [|apply silent_ret]. destruct (grid_hit prm i && _); [|apply silent_ret].
    apply silent_bind; [apply silent_tracking|intros; apply silent_ret]. }
  intros j'. apply silent_bind.
  { destruct (progress_due prm i); [|apply silent_ret].
    apply silent_bind; [apply silent_get|intros; apply silent_print]. }
  intros _. apply silent_ret.
Qed.

Fixpoint times (k : nat) (l : list meth) : list meth :=
  match k with O => [] | S m => l ++ times m l end.

Lemma pxmala_loop_emits tune fuel : forall i j c w w' out, xpxmala_loop o f prm tune fuel i j c w = (w', out) ->
  exists k l1, tr (w_rng w') = tr (w_rng w) ++ l1 /\ begins l1 (times k four) /\
    (forall u l, out = Ret u -> i_acc (w_inst w) = Some l ->
       l1 = times k four /\ exists l', i_acc (w_inst w') = Some (l ++ l') /\ List.length l' = k).
Proof.
  induction fuel as [|n IH]; intros i j c w w' out Hw; simpl in Hw; destruct (j <? p_nsamples prm).
  - inversion Hw; subst. exists O, []. rewrite app_nil_r. split; [reflexivity|]. split; [apply begins_nil|discriminate].
  - inversion Hw; subst. exists O, []. rewrite app_nil_r. split; [reflexivity|]. split; [apply begins_nil|].
    intros _ l _ Ha. split; [reflexivity|]. exists []. rewrite app_nil_r. split; [exact Ha|reflexivity].
  - unfold bind in Hw. destruct (xpxmala_body o f prm tune i j c w) as [w1 o1] eqn:E1.
    destruct (emits_pxmala_body tune i j c _ _ _ E1) as (l1 & T1 & B1 & R1). destruct o1 as [[j' c']|x|].
    + destruct (R1 _ eq_refl) as (-> & _). destruct (IH _ _ _ _ _ _ Hw) as (k & l2 & T2 & B2 & R2).
      exists (S k), (four ++ l2). rewrite T2, T1, <- app_assoc. split; [reflexivity|]. split; [now apply begins_app|].
      intros u l Hu Ha. destruct (accs_pxmala_body tune i j c _ _ _ _ E1 Ha) as (a1 & A1 & L1).
      destruct (R2 u _ Hu A1) as (-> & a2 & A2 & L2). split; [reflexivity|]. exists (a1 ++ a2).
      rewrite A2, app_assoc, app_length. split; [reflexivity|lia].
    + inversion Hw; subst. exists 1%nat, l1. split; [exact T1|]. split; [now apply begins_l|discriminate].
    + inversion Hw; subst. exists 1%nat, l1. split; [exact T1|]. split; [now apply begins_l|discriminate].
  - inversion Hw; subst. exists O, []. rewrite app_nil_r. split; [reflexivity|]. split; [apply begins_nil|].
    intros _ l _ Ha. split; [reflexivity|]. exists []. rewrite app_nil_r. split; [exact Ha|reflexivity].
Qed.

(** *** the runs *)

Lemma begins_cons_nil a l : begins [] (a :: l) . Proof. apply begins_nil. Qed.

Lemma begins_single l a m : begins l [a] -> begins l (a :: m).
Proof. intros H. change (a :: m) with ([a] ++ m). now apply begins_l. Qed.

Lemma myula_emits fuel st w w' out : xmyula_run o f prm fuel st w = (w', out) ->
  exists k l1, tr (w_rng w') = tr (w_rng w) ++ l1 /\ begins l1 (MForward :: trace_from [MGradg; MProxf; MForward] 0 k) /\
    (forall u, out = Ret u -> l1 = MForward :: trace_from [MGradg; MProxf; MForward] 0 k /\ finished 0 0 k).
Proof.
  intros Hw. unfold xmyula_run, bind in Hw. destruct (xinitial_sample o f st w) as [w1 o1] eqn:E1.
  destruct (emits_initial st _ _ _ E1) as (l1 & T1 & B1 & R1). destruct o1 as [[x d]|e|].
  - destruct (R1 _ eq_refl) as (-> & _). destruct (myula_loop_emits _ _ _ _ _ _ _ _ Hw) as (k & l2 & T2 & B2 & R2).
    exists k, ([MForward] ++ l2). rewrite T2, T1, <- app_assoc. split; [reflexivity|].
    split; [apply (begins_app [MForward]); exact B2|]. intros u Hu. destruct (R2 u Hu) as (-> & HF). now split.
  - inversion Hw; subst. exists O, l1. split; [exact T1|]. split; [now apply begins_single|discriminate].
  - inversion Hw; subst. exists O, l1. split; [exact T1|]. split; [now apply begins_single|discriminate].
Qed.

Lemma skrock_emits fuel st w w' out : xskrock_run o f prm fuel st w = (w', out) ->
  exists k l1, tr (w_rng w') = tr (w_rng w) ++ l1 /\ begins l1 (MForward :: trace_from (sk ++ [MForward]) 0 k) /\
    (forall u, out = Ret u -> l1 = MForward :: trace_from (sk ++ [MForward]) 0 k /\ finished 0 0 k).
Proof.
  intros Hw. unfold xskrock_run, bind in Hw. destruct (xinitial_sample o f st w) as [w1 o1] eqn:E1.
  destruct (emits_initial st _ _ _ E1) as (l1 & T1 & B1 & R1). destruct o1 as [[x d]|e|].
  - destruct (R1 _ eq_refl) as (-> & _). destruct (skrock_loop_emits _ _ _ _ _ _ _ _ Hw) as (k & l2 & T2 & B2 & R2).
    exists k, ([MForward] ++ l2). rewrite T2, T1, <- app_assoc. split; [reflexivity|].
    split; [apply (begins_app [MForward]); exact B2|]. intros u Hu. destruct (R2 u Hu) as (-> & HF). now split.
  - inversion Hw; subst. exists O, l1. split; [exact T1|]. split; [now apply begins_single|discriminate].
  - inversion Hw; subst. exists O, l1. split; [exact T1|]. split; [now apply begins_single|discriminate].
Qed.

Lemma pxmala_emits tune fuel st w w' out : xpxmala_run o f prm tune fuel st w = (w', out) ->
  exists k l1, tr (w_rng w') = tr (w_rng w) ++ l1 /\ begins l1 (times (S k) four) /\
    (forall u, out = Ret u ->
       l1 = times (S k) four /\ exists a, i_acc (w_inst w') = Some a /\ List.length a = k).
Proof.
  intros Hw.
  assert (HI : emits (bind (xinitial_sample o f st) (fun r => let '(x, d) := r in
                 bind (with_rng (x_gradg f d)) (fun g => bind (with_rng (x_proxf f x)) (fun p =>
                 bind (with_rng (x_logpi f x d)) (fun t => let '(a, b, c) := t in ret (mkMala x d g p a b c))))))
               four (fun _ => True)).
  { change four with ([MForward] ++ [MGradg] ++ [MProxf] ++ [MPrior]).
    apply (emits_bind _ _ _ _ (fun _ => True)); [apply emits_initial|intros [x d] _].
    apply (emits_bind _ _ _ _ (fun _ => True)); [apply emits_rng, Hg|intros g _].
    apply (emits_bind _ _ _ _ (fun _ => True)); [apply emits_rng, Hp|intros p _].
    apply (emits_tail _ _ _ (fun _ => True)); [apply emits_rng, Hl|intros [[a b] c] _]. now apply emits_ret. }
  assert (HK : keeps (bind (xinitial_sample o f st) (fun r => let '(x, d) := r in
                 bind (with_rng (x_gradg f d)) (fun g => bind (with_rng (x_proxf f x)) (fun p =>
                 bind (with_rng (x_logpi f x d)) (fun t => let '(a, b, c) := t in ret (mkMala x d g p a b c))))))).
  { apply keeps_bind.
    - unfold xinitial_sample. repeat (apply keeps_bind; [apply keeps_rng|intros]). apply keeps_ret.
    - intros [x d]. do 2 (apply keeps_bind; [apply keeps_rng|intros]). apply keeps_bind; [apply keeps_rng|intros [[v1 v2] v3]]. apply keeps_ret. }
  set (ini := bind (xinitial_sample o f st) _) in HI, HK.
  set (w0 := mkWorld (set_deltas (Some [i_delta (set_acc (Some []) (w_inst w))]) (set_acc (Some []) (w_inst w))) (w_rng w)) in *.
  assert (Hw' : bind ini (fun c => xpxmala_loop o f prm tune fuel 0 0 c) w0 = (w', out)).
  { rewrite <- Hw. unfold xpxmala_run, ini, bind, get_inst, put_inst. cbn [w_inst w_rng]. fold w0.
    destruct (xinitial_sample o f st w0) as [w1 [[x d]|e|]]; try reflexivity.
    destruct (with_rng (x_gradg f d) w1) as [w2 [g|e|]]; try reflexivity.
    destruct (with_rng (x_proxf f x) w2) as [w3 [p|e|]]; try reflexivity.
    destruct (with_rng (x_logpi f x d) w3) as [w4 [[[a b] c]|e|]]; reflexivity. }
  clear Hw. specialize (HK w0). clearbody ini. unfold bind in Hw'. destruct (ini w0) as [w1 o1] eqn:E1.
  destruct (HI _ _ _ E1) as (l1 & T1 & B1 & R1). change (w_rng w0) with (w_rng w) in T1. cbn [fst] in HK.
  change (i_acc (w_inst w0)) with (Some (@nil Z)) in HK.
  destruct o1 as [c|e|].
  - destruct (R1 _ eq_refl) as (-> & _). destruct (pxmala_loop_emits _ _ _ _ _ _ _ _ Hw') as (k & l2 & T2 & B2 & R2).
    exists k, (four ++ l2). rewrite T2, T1, <- app_assoc. split; [reflexivity|]. split; [now apply begins_app|].
    intros u Hu. destruct (R2 u _ Hu HK) as (-> & a & A1 & L). split; [reflexivity|]. exists a. split; [exact A1|exact L].
  - inversion Hw'; subst. exists O, l1. split; [exact T1|]. split; [now apply begins_l|discriminate].
  - inversion Hw'; subst. exists O, l1. split; [exact T1|]. split; [now apply begins_l|discriminate].
Qed.
End Emit.

(** ** from the loop's trace to the specification *)

Lemma saves_on_grid prm i : 0 <= i -> (saves prm i = true <-> on_grid (p_nburn prm) (p_ngap prm) i).
Proof. intros Hi. rewrite (saves_iff prm i Hi). apply save_iter_on_grid; exact Hi. Qed.

Lemma trace_snoc prm blk k : forall i,
  trace_from prm blk i (S k) = trace_from prm blk i k ++ blk ++ (if saves prm (i + Z.of_nat k) then [MPrior] else []).
Proof.
  induction k as [|k IH]; intros i.
  - cbn. now rewrite Z.add_0_r, app_nil_r.
  - change (trace_from prm blk i (S (S k))) with
      ((blk ++ if saves prm i then [MPrior] else []) ++ trace_from prm blk (i + 1) (S k)).
    rewrite IH. replace (i + 1 + Z.of_nat k) with (i + Z.of_nat (S k)) by lia. cbn [trace_from].
    now rewrite !app_assoc.
Qed.

Lemma trace_calls prm blk k : calls_of blk (p_nburn prm) (p_ngap prm) k (trace_from prm blk 0 k).
Proof.
  induction k as [|k IH]; [constructor|]. rewrite trace_snoc, Z.add_0_l.
  pose proof (saves_on_grid prm (Z.of_nat k) ltac:(lia)) as HS. destruct (saves prm (Z.of_nat k)).
  - constructor; [exact IH|]. now apply HS.
  - rewrite app_nil_r. constructor; [exact IH|]. intros H. apply HS in H. discriminate.
Qed.

Lemma nsaved_idx prm k : forall i, nsaved prm i k = Z.of_nat (List.length (saved_idx prm i k)).
Proof.
  induction k as [|k IH]; intros i; [reflexivity|]. cbn [nsaved saved_idx]. rewrite IH, app_length, map_length.
  destruct (saves prm i); cbn [List.length]; lia.
Qed.

Lemma finished_total prm n k : p_nsamples prm = Z.of_nat n -> finished prm 0 0 k ->
  k = total_iters (p_nburn prm) (p_ngap prm) n.
Proof.
  intros Hn [(-> & H0)|(m & -> & Hs & H1 & H2)].
  - replace n with O by lia. reflexivity.
  - rewrite !nsaved_idx in *. rewrite Z.add_0_l in *.
    pose proof (saved_idx_snoc prm m 0) as HS. rewrite Z.add_0_l, Hs in HS. apply (f_equal (@List.length nat)) in HS.
    rewrite app_length in HS. cbn [List.length] in HS.
    destruct (saved_idx_closed prm m) as (_ & A & B). cbv zeta in A, B.
    set (c := List.length (saved_idx prm 0 m)) in *.
    assert (n = S c) as -> by lia. unfold total_iters.
    apply saves_iff in Hs; [|lia]. destruct Hs as (j & Hj).
    assert (j = c) as ->; [|rewrite <- Hj; lia].
    destruct (lt_eq_lt_dec j c) as [[L|L]|L]; [|exact L|].
    + specialize (B j L). rewrite <- Hj in B. lia.
    + apply (save_iter_lt (p_nburn prm) (p_ngap prm)) in L. pose proof (save_iter_nonneg (p_nburn prm) (p_ngap prm) c). lia.
Qed.

(** ** the numerical methods *)

Section Private.
Context {E G : Type}.
Variable pi : E -> G.

(** [f] returns [r] and leaves the generator alone *)
Definition quiet {A} (f : E -> res A * E) (r : res A) : Prop :=
  forall e, fst (f e) = r /\ pi (snd (f e)) = pi e.

Lemma quiet_then {A B} (m : E -> res A * E) (r : res A) (k : A -> E -> res B * E) (k' : A -> res B) :
  quiet m r -> (forall a, quiet (k a) (k' a)) -> quiet (ethen m k) (rbind r k').
Proof.
  intros H1 H2 e. unfold ethen. destruct (H1 e) as (E1 & E2). destruct (m e) as [r0 e1]. cbn in E1, E2. subst r0.
  destruct r as [a|x]; cbn; [|now split]. destruct (H2 a e1) as (E3 & E4). rewrite E3, E4, E2. now split.
Qed.
Lemma quiet_then_ok {A B} (m : E -> res A * E) (r : res A) (k : A -> E -> res B * E) (k' : A -> res B) :
  quiet m r -> (forall a, r = Ok a -> quiet (k a) (k' a)) -> quiet (ethen m k) (rbind r k').
Proof.
  intros H1 H2. destruct r as [a|x].
  - intros e. unfold ethen. destruct (H1 e) as (E1 & E2). destruct (m e) as [r0 e1]. cbn in E1, E2. subst r0.
    destruct (H2 a eq_refl e1) as (E3 & E4). cbn. rewrite E3, E4, E2. now split.
  - intros e. unfold ethen. destruct (H1 e) as (E1 & E2).
    destruct (m e) as [r0 e1]. cbn in E1, E2. subst r0. cbn. now split.
Qed.
Lemma quiet_pure {A} (r : res A) : quiet (epure r) r.
Proof. intros e; now split. Qed.

Variable R0 : rng G.
Variable R1 : rng E.
Variable fo : forward_op.
Variable pr : prior_obj.
Variable u : user_ops E.
Variable q : numparams.
Hypothesis HP : private pi R0 fo pr R1 u.

Lemma quiet_logpi x d : quiet (xlogpi fo u q x d) (logpi fo pr q x d).
Proof.
  unfold xlogpi, logpi. do 3 (apply quiet_then; [apply quiet_pure|intros ?]).
  apply quiet_then; [|intros; apply quiet_pure]. intros e. apply HP.
Qed.

Lemma quiet_gradlogpi x o : quiet (xgradlogpi u q x o) (gradlogpi fo pr q x o).
Proof.
  destruct HP as (Hf & Hg & Hp & _).
  unfold xgradlogpi, gradlogpi. apply quiet_then; [intros e; apply Hp|intros px].
  apply quiet_then; [apply quiet_pure|intros d]. cbv zeta.
  apply quiet_then. { destruct o; [apply quiet_pure|intros e; apply Hf]. }
  intros pd. apply quiet_then; [intros e; apply Hg|intros; apply quiet_pure].
Qed.

Lemma quiet_K delta x z s : quiet (xK_recursion u q delta x s z) (K_recursion fo pr q delta x s z).
Proof.
  induction s as [s IH] using lt_wf_ind. destruct s as [|[|s]].
  - apply quiet_pure.
  - cbn [xK_recursion K_recursion]. apply quiet_then; [apply quiet_pure|intros [[mu nu] k]].
    apply quiet_then; [apply quiet_pure|intros y]. apply quiet_then; [apply quiet_gradlogpi|intros gr].
    apply quiet_then; [apply quiet_pure|intros a]. apply quiet_pure.
  - assert (H1 := IH (S s) ltac:(lia)). assert (H2 := IH s ltac:(lia)). clear IH.
    cbn [xK_recursion K_recursion]. cbn [xK_recursion K_recursion] in H1.
    set (X1 := match s with O => _ | S _ => _ end) in H1 |- *.
    set (K1 := match s with O => _ | S _ => _ end) in H1 |- *. clearbody X1 K1.
    apply quiet_then; [apply quiet_pure|intros [[mu nu] k]].
    apply quiet_then_ok; [exact H1|intros v Ev].
    assert (Q : quiet (ethen (xgradlogpi u q v None) (fun gr => ethen X1 (fun K1' =>
              ethen (epure (np_add (vscal (RtoC (mu * delta)) gr) (vscal (RtoC nu) K1'))) (fun a =>
              ethen (xK_recursion u q delta x s z) (fun K2 => epure (np_sub (vshift (RtoC k) a) K2))))))
            (rbind (gradlogpi fo pr q v None) (fun gr => rbind (Ok v) (fun v' =>
              rbind (np_add (vscal (RtoC (mu * delta)) gr) (vscal (RtoC nu) v')) (fun a =>
              rbind (K_recursion fo pr q delta x s z) (fun K2 => np_sub (vshift (RtoC k) a) K2)))))).
    { apply quiet_then; [apply quiet_gradlogpi|intros gr]. rewrite <- Ev. apply quiet_then; [exact H1|intros v'].
      apply quiet_then; [apply quiet_pure|intros a]. apply quiet_then; [exact H2|intros K2]. apply quiet_pure. }
    exact Q.
Qed.

Lemma sim_draw (d1 : nat -> E -> list R * E) (d0 : nat -> G -> list R * G) c n :
  (forall m e, fst (d1 m e) = fst (d0 m (pi e)) /\ pi (snd (d1 m e)) = snd (d0 m (pi e))) ->
  forall e, fst (draw d1 c n e) = fst (draw d0 c n (pi e)) /\ pi (snd (draw d1 c n e)) = snd (draw d0 c n (pi e)).
Proof.
  intros H e. unfold draw. destruct (H n e) as (A1 & A2). destruct (d1 n e) as [a e1], (d0 n (pi e)) as [a' g1].
  cbn in A1, A2. subst. destruct c; [|now split]. destruct (H n e1) as (B1 & B2).
  destruct (d1 n e1) as [b e2], (d0 n (pi e1)) as [b' g2]. cbn in *. subst. now split.
Qed.

Lemma sim_start st : esim pi (choose_start R1 fo q st) (choose_start R0 fo q st).
Proof.
  intros e. destruct st as [|sh b|]; cbn; [|destruct (negb _); [now split|]|now split];
    destruct (fo_nparams fo) as [n|]; try now split.
  - destruct HP as (_ & _ & _ & _ & _ & HL & _). destruct (sim_draw _ _ (n_complex q) n HL e) as (A1 & A2).
    destruct (draw (g_laplace R1) (n_complex q) n e), (draw (g_laplace R0) (n_complex q) n (pi e)). cbn in *. subst. now split.
  - destruct (Nat.eqb (List.length b) n); now split.
Qed.

Lemma sim_chain_step d x p g : esim pi (chain_step R1 fo q d x p g) (chain_step R0 fo q d x p g).
Proof.
  intros e. unfold chain_step. destruct (fo_nparams fo) as [n|]; [|now split].
  destruct HP as (_ & _ & _ & _ & HL & _). destruct (sim_draw _ _ (n_complex q) n HL e) as (A1 & A2).
  destruct (draw (g_randn R1) (n_complex q) n e), (draw (g_randn R0) (n_complex q) n (pi e)). cbn in A1, A2. subst. now split.
Qed.

Lemma sim_skrock_step d x : esim pi (xskrock_step R1 u q d x) (skrock_step R0 fo pr q d x).
Proof.
  intros e. unfold xskrock_step, skrock_step.
  destruct HP as (_ & _ & _ & _ & HL & _). destruct (sim_draw _ _ (n_complex q) (List.length x) HL e) as (A1 & A2).
  destruct (draw (g_randn R1) (n_complex q) (List.length x) e) as [z e1], (draw (g_randn R0) (n_complex q) (List.length x) (pi e)) as [z' g1].
  cbn in A1, A2. subst. destruct (quiet_K d x z' (Z.to_nat (n_s q)) e1) as (B1 & B2). cbn [fst snd]. now split.
Qed.

Lemma sim_logrand e : fst (logrand R1 e) = fst (logrand R0 (pi e)) /\ pi (snd (logrand R1 e)) = snd (logrand R0 (pi e)).
Proof.
  destruct HP as (_ & _ & _ & _ & _ & _ & HL). unfold logrand. destruct (HL e) as (A1 & A2).
  destruct (g_rand R1 e), (g_rand R0 (pi e)). cbn in *. subst. now split.
Qed.

Lemma private_runs prm fuel st tune :
  sim pi (myula_with R1 fo u q prm fuel st) (myula_run (mcmc_ops R0 fo pr q) prm fuel st) /\
  sim pi (pxmala_with R1 fo u q prm tune fuel st) (pxmala_run (mcmc_ops R0 fo pr q) prm tune fuel st) /\
  sim pi (skrock_with R1 fo u q prm fuel st) (skrock_run (mcmc_ops R0 fo pr q) prm fuel st).
Proof.
  pose proof HP as (Hf & Hg & Hp & _).
  split; [|split]; [apply sim_myula|apply sim_pxmala|apply sim_skrock];
    first [exact sim_start|exact sim_chain_step|exact sim_skrock_step|exact sim_logrand|exact Hf|exact Hg|exact Hp
          |exact quiet_logpi|reflexivity].
Qed.
End Private.

Section Logs.
Context {E : Type}.
Variable tr : E -> list meth.
Variable R1 : rng E.
Variable fo : forward_op.
Variable u : user_ops E.
Variable q : numparams.
Hypothesis HL : logs tr R1 u.
Notation eemits := (eemits tr).

Lemma ee_then {A B} (m : E -> res A * E) (k : A -> E -> res B * E) l l' :
  eemits m l -> (forall a, eemits (k a) l') -> eemits (ethen m k) (l ++ l').
Proof.
  intros H1 H2 e. unfold ethen. destruct (H1 e) as (l1 & T1 & B1 & R2). destruct (m e) as [[a|x] e1]; cbn in T1, R2.
  - rewrite (R2 a eq_refl) in T1. destruct (H2 a e1) as (l2 & T2 & B2 & R3). exists (l ++ l2).
    rewrite T2, T1, app_assoc. split; [reflexivity|]. split; [now apply begins_app|].
    intros b Hb. now rewrite (R3 b Hb).
  - exists l1. split; [exact T1|]. split; [now apply begins_l|discriminate].
Qed.
Lemma ee_pure {A} (r : res A) : eemits (epure r) [].
Proof. intros e. exists []. rewrite app_nil_r. split; [reflexivity|]. split; [apply begins_nil|reflexivity]. Qed.
Lemma ee_call {A} (f : E -> res A * E) m : (forall e, tr (snd (f e)) = tr e ++ [m]) -> eemits f [m].
Proof. intros H e. exists [m]. split; [apply H|]. split; [apply begins_refl|reflexivity]. Qed.
Lemma ee_none {A} (f : E -> res A * E) : (forall e, tr (snd (f e)) = tr e) -> eemits f [].
Proof. intros H e. exists []. rewrite app_nil_r. split; [apply H|]. split; [apply begins_nil|reflexivity]. Qed.

Lemma ee_logpi x d : eemits (xlogpi fo u q x d) [MPrior].
Proof.
  unfold xlogpi. change [MPrior] with ([] ++ [] ++ [] ++ [MPrior] ++ [] : list meth).
  do 3 (apply ee_then; [apply ee_pure|intros ?]). apply ee_then; [|intros; apply ee_pure].
  apply ee_call. intros e. apply HL.
Qed.

Lemma ee_gradlogpi x : eemits (xgradlogpi u q x None) gradient.
Proof.
  destruct HL as (Hf & Hg & Hp & _). unfold xgradlogpi.
  change gradient with ([MProxf] ++ [] ++ [MForward] ++ [MGradg] ++ [] : list meth).
  apply ee_then; [apply ee_call; intros; apply Hp|intros px]. apply ee_then; [apply ee_pure|intros d]. cbv zeta.
  apply ee_then; [apply ee_call; intros; apply Hf|intros pd].
  apply ee_then; [apply ee_call; intros; apply Hg|intros; apply ee_pure].
Qed.

Lemma ee_K delta x z s : eemits (xK_recursion u q delta x s z) (stage_calls s).
Proof.
  induction s as [s IH] using lt_wf_ind. destruct s as [|[|s]].
  - apply ee_pure.
  - cbn [xK_recursion stage_calls]. replace gradient with ([] ++ [] ++ gradient ++ [] ++ [] : list meth) by reflexivity.
    apply ee_then; [apply ee_pure|intros [[mu nu] k]].
    apply ee_then; [apply ee_pure|intros y]. apply ee_then; [apply ee_gradlogpi|intros gr].
    apply ee_then; [apply ee_pure|intros a]. apply ee_pure.
  - assert (H1 := IH (S s) ltac:(lia)). assert (H2 := IH s ltac:(lia)). clear IH.
    cbn [xK_recursion]. cbn [xK_recursion] in H1.
    change (stage_calls (S (S s))) with (stage_calls (S s) ++ gradient ++ stage_calls (S s) ++ stage_calls s).
    set (X1 := match s with O => _ | S _ => _ end) in H1 |- *. clearbody X1.
    replace (stage_calls (S s) ++ gradient ++ stage_calls (S s) ++ stage_calls s)
      with ([] ++ stage_calls (S s) ++ gradient ++ stage_calls (S s) ++ [] ++ stage_calls s ++ [])
      by (now rewrite app_nil_r).
    apply ee_then; [apply ee_pure|intros [[mu nu] k]]. apply ee_then; [exact H1|intros v].
    apply ee_then; [apply ee_gradlogpi|intros gr]. apply ee_then; [exact H1|intros v'].
    apply ee_then; [apply ee_pure|intros a]. apply ee_then; [exact H2|intros; apply ee_pure].
Qed.

Lemma tr_draw d c n : (forall m e, tr (snd (d m e)) = tr e) -> forall e, tr (snd (draw d c n e)) = tr e.
Proof.
  intros H e. unfold draw. pose proof (H n e) as A. destruct (d n e) as [a e1]. cbn in A. destruct c; [|exact A].
  pose proof (H n e1) as B. destruct (d n e1) as [b e2]. cbn in *. congruence.
Qed.

Lemma ee_start st : eemits (choose_start R1 fo q st) [].
Proof.
  apply ee_none. intros e. destruct st as [|sh b|]; cbn; [|destruct (negb _); [reflexivity|]|reflexivity];
    destruct (fo_nparams fo) as [n|]; try reflexivity.
  - pose proof (tr_draw (g_laplace R1) (n_complex q) n ltac:(intros; apply HL) e) as A.
    destruct (draw (g_laplace R1) (n_complex q) n e). exact A.
  - destruct (Nat.eqb (List.length b) n); reflexivity.
Qed.

Lemma ee_step d x p g : eemits (chain_step R1 fo q d x p g) [].
Proof.
  apply ee_none. intros e. unfold chain_step. destruct (fo_nparams fo) as [n|]; [|reflexivity].
  pose proof (tr_draw (g_randn R1) (n_complex q) n ltac:(intros; apply HL) e) as A.
  destruct (draw (g_randn R1) (n_complex q) n e). exact A.
Qed.

Lemma ee_skstep d x : eemits (xskrock_step R1 u q d x) (stage_calls (Z.to_nat (n_s q))).
Proof.
  intros e. unfold xskrock_step.
  pose proof (tr_draw (g_randn R1) (n_complex q) (List.length x) ltac:(intros; apply HL) e) as A.
  destruct (draw (g_randn R1) (n_complex q) (List.length x) e) as [z e1]. cbn in A.
  destruct (ee_K d x z (Z.to_nat (n_s q)) e1) as (l1 & T & B & R2). exists l1. rewrite T, A. now split.
Qed.

Lemma tr_logrand e : tr (snd (logrand R1 e)) = tr e.
Proof.
  destruct HL as (_ & _ & _ & _ & _ & _ & H). specialize (H e). unfold logrand. destruct (g_rand R1 e). exact H.
Qed.

Lemma myula_logged prm fuel st w w' out : myula_with R1 fo u q prm fuel st w = (w', out) ->
  exists k l1, tr (w_rng w') = tr (w_rng w) ++ l1 /\ begins l1 (MForward :: trace_from prm [MGradg; MProxf; MForward] 0 k) /\
    (forall v, out = Ret v -> l1 = MForward :: trace_from prm [MGradg; MProxf; MForward] 0 k /\ finished prm 0 0 k).
Proof.
  destruct HL as (Hf & Hg & Hp & _). apply myula_emits.
  - exact ee_start. - exact ee_step.
  - intros x. apply ee_call. apply Hf. - intros x. apply ee_call. apply Hg.
  - intros x. apply ee_call. apply Hp. - exact ee_logpi.
Qed.

Lemma skrock_logged prm fuel st w w' out : skrock_with R1 fo u q prm fuel st w = (w', out) ->
  let blk := stage_calls (Z.to_nat (n_s q)) ++ [MForward] in
  exists k l1, tr (w_rng w') = tr (w_rng w) ++ l1 /\ begins l1 (MForward :: trace_from prm blk 0 k) /\
    (forall v, out = Ret v -> l1 = MForward :: trace_from prm blk 0 k /\ finished prm 0 0 k).
Proof.
  destruct HL as (Hf & Hg & Hp & _). cbv zeta. apply skrock_emits.
  - exact ee_start. - exact ee_skstep.
  - intros x. apply ee_call. apply Hf. - exact ee_logpi.
Qed.

Lemma pxmala_logged prm tune fuel st w w' out : pxmala_with R1 fo u q prm tune fuel st w = (w', out) ->
  exists k l1, tr (w_rng w') = tr (w_rng w) ++ l1 /\ begins l1 (times (S k) four) /\
    (forall v, out = Ret v ->
       l1 = times (S k) four /\ exists a, i_acc (w_inst w') = Some a /\ List.length a = k).
Proof.
  destruct HL as (Hf & Hg & Hp & _). apply pxmala_emits.
  - exact ee_start. - exact ee_step. - exact tr_logrand.
  - intros x. apply ee_call. apply Hf. - intros x. apply ee_call. apply Hg.
  - intros x. apply ee_call. apply Hp. - exact ee_logpi.
Qed.
End Logs.
