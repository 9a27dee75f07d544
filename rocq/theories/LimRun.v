(** Families of sampler executions and their limit (C66): if the operations of a
    family tend to operations without a tie in a decision, so do whole runs. *)
From Coq Require Import List ZArith Lia Bool.
From Verif Require Import PyBase PyBaseFacts Sampler ParamProof.
Import ListNotations.
Notation length := List.length.

Local Notation "'do' x <- m ; k" := (bind m (fun x => k))
  (at level 200, x pattern, m at level 100, k at level 200, right associativity).

Section Run.
Variable J : Type.
Variable near : (J -> Prop) -> Prop.
Hypothesis near_true : forall P : J -> Prop, (forall i, P i) -> near P.
Hypothesis near_and : forall P Q, near P -> near Q -> near (fun i => P i /\ Q i).
Hypothesis near_mono : forall P Q : J -> Prop, (forall i, P i -> Q i) -> near P -> near Q.

Lemma near2 : forall P Q R : J -> Prop, near P -> near Q -> (forall i, P i -> Q i -> R i) -> near R.
Proof. intros P Q R HP HQ H. apply (near_mono (fun i => P i /\ Q i)); [intros i (A & B); auto|]. now apply near_and. Qed.

Definition same {A} (a : J -> A) (b : A) : Prop := near (fun i => a i = b).
Definition closed {A B} (T : (J -> A) -> B -> Prop) : Prop := forall a a' b, near (fun i => a i = a' i) -> T a' b -> T a b.
Lemma same_closed {A} : closed (@same A).
Proof. intros a a' b E H. apply (near2 _ _ _ E H). congruence. Qed.
Lemma same_const {A} (a : A) : same (fun _ => a) a.
Proof. now apply near_true. Qed.

Definition tres {A B} (T : (J -> A) -> B -> Prop) (r : J -> res A) (s : res B) : Prop :=
  match s with Ok b => exists a, near (fun i => r i = Ok (a i)) /\ T a b | Raise e => near (fun i => r i = Raise e) end.
Definition tout {A B} (T : (J -> A) -> B -> Prop) (r : J -> outcome A) (s : outcome B) : Prop :=
  match s with Ret b => exists a, near (fun i => r i = Ret (a i)) /\ T a b | Exn e => near (fun i => r i = Exn e) | NoFuel => near (fun i => r i = NoFuel) end.
Definition tlist {A B} (T : (J -> A) -> B -> Prop) (L : J -> list A) (l : list B) : Prop :=
  exists Ls, near (fun i => L i = map (fun v : J -> A => v i) Ls) /\ Forall2 T Ls l.
Definition tarr {A B} (T : (J -> A) -> B -> Prop) (L : J -> option (list A)) (l : option (list B)) : Prop :=
  match l with None => near (fun i => L i = None) | Some m => exists L', near (fun i => L i = Some (L' i)) /\ tlist T L' m end.
Lemma tlist_closed {A B} (T : (J -> A) -> B -> Prop) : closed (tlist T).
Proof. intros a a' b E (Ls & N & F). exists Ls. split; [|exact F]. apply (near2 _ _ _ E N). congruence. Qed.
Lemma tarr_closed {A B} (T : (J -> A) -> B -> Prop) : closed (tarr T).
Proof.
  intros a a' [m|] E H; cbn in *; [|apply (near2 _ _ _ E H); congruence]. destruct H as (L & N & F). exists L. split; [|exact F]. apply (near2 _ _ _ E N). congruence.
Qed.
Lemma tarr_some {A B} (T : (J -> A) -> B -> Prop) L l : tlist T L l -> tarr T (fun i => Some (L i)) (Some l).
Proof. intros H. exists L. split; [now apply near_true|exact H]. Qed.

Lemma tlist_app {A B} (T : (J -> A) -> B -> Prop) L l M m : tlist T L l -> tlist T M m -> tlist T (fun i => L i ++ M i) (l ++ m).
Proof.
  intros (Ls & N & F) (Ms & N2 & F2). exists (Ls ++ Ms). split; [|now apply Forall2_app]. apply (near2 _ _ _ N N2). intros i -> ->. now rewrite map_app.
Qed.
Lemma tlist_one {A B} (T : (J -> A) -> B -> Prop) a b : T a b -> tlist T (fun i => [a i]) [b].
Proof. intros H. exists [a]. split; [now apply near_true|]. constructor; [exact H|constructor]. Qed.
Lemma map_upd {A B} (f : A -> B) l k a : map f (upd l k a) = upd (map f l) k (f a).
Proof. revert k. induction l as [|x l IH]; intros [|k]; cbn; congruence. Qed.
Lemma tlist_setitem {A B} (T : (J -> A) -> B -> Prop) L l k a b : tlist T L l -> T a b ->
  tres (tlist T) (fun i => py_setitem (L i) k (a i)) (py_setitem l k b).
Proof.
  intros (Ls & N & F) H. assert (I := f2_setitem T Ls l k a b F H).
  assert (N2 : near (fun i => py_setitem (L i) k (a i) = match py_setitem Ls k a with Ok v => Ok (map (fun x : J -> A => x i) v) | Raise e => Raise e end)).
  { apply near_mono with (2 := N). intros i ->. unfold py_setitem. rewrite map_length. destruct (_ || _)%bool; [reflexivity|]. now rewrite map_upd. }
  destruct (py_setitem Ls k a) as [v|], (py_setitem l k b) as [m|]; cbn in I; try contradiction; cbn; [|subst; exact N2].
  exists (fun i => map (fun x : J -> A => x i) v). split; [exact N2|]. exists v. split; [now apply near_true|exact I].
Qed.
Lemma tlist_index {A B} (T : (J -> A) -> B -> Prop) L l k : tlist T L l -> tres T (fun i => py_index (L i) k) (py_index l k).
Proof.
  intros (Ls & N & F). assert (I := f2_index T Ls l k F).
  assert (N2 : near (fun i => py_index (L i) k = match py_index Ls k with Ok v => Ok (v i) | Raise e => Raise e end)).
  { apply near_mono with (2 := N). intros i ->. unfold py_index. rewrite map_length. destruct (_ || _)%bool; [reflexivity|].
    rewrite nth_error_map. destruct (nth_error Ls _); reflexivity. }
  destruct (py_index Ls k) as [v|], (py_index l k) as [b|]; cbn in I; try contradiction; cbn; [exists v; auto|subst; exact N2].
Qed.

Context {V D K P G IS : Type}.
Variable TV : (J -> V) -> V -> Prop.
Variable TD : (J -> D) -> D -> Prop.
Variable TK : (J -> K) -> K -> Prop.
Variable TP : (J -> P) -> P -> Prop.
(** the logarithms of the draws *)
Variable TU : (J -> K) -> K -> Prop.
Hypothesis CP : closed TP.

Definition tevent (E : J -> event K) (e : event K) : Prop :=
  match e with
  | EvProgress k a b c acc => exists A B C, near (fun i => E i = EvProgress k (A i) (B i) (C i) acc) /\ TK A a /\ TK B b /\ TK C c
  | _ => near (fun i => E i = e)
  end.
Record tinst (S : J -> inst V D K P) (s : inst V D K P) : Prop := {
  ti_logPi : tarr TK (fun i => i_logPi (S i)) (i_logPi s);
  ti_L2s : tarr TK (fun i => i_L2s (S i)) (i_L2s s);
  ti_priors : tarr TK (fun i => i_priors (S i)) (i_priors s);
  ti_preds : tarr TD (fun i => i_preds (S i)) (i_preds s);
  ti_chain : tarr TV (fun i => i_chain (S i)) (i_chain s);
  ti_acc : same (fun i => i_acc (S i)) (i_acc s);
  ti_deltas : tarr TP (fun i => i_deltas (S i)) (i_deltas s);
  ti_delta : TP (fun i => i_delta (S i)) (i_delta s);
  ti_out : tlist tevent (fun i => i_out (S i)) (i_out s) }.
Definition tworld (w : J -> world V D K P G) (v : world V D K P G) : Prop :=
  tinst (fun i => w_inst (w i)) (w_inst v) /\ same (fun i => w_rng (w i)) (w_rng v).
Lemma tinst_closed : closed tinst.
Proof.
  intros S S' s E [H1 H2 H3 H4 H5 H6 H7 H8 H9].
  assert (Q : forall {A} (f : inst V D K P -> A), near (fun i => f (S i) = f (S' i))) by (intros; apply near_mono with (2 := E); intros; congruence).
  constructor.
  - apply (tarr_closed TK (fun i => i_logPi (S i)) (fun i => i_logPi (S' i))); [apply (Q _ i_logPi)|assumption].
  - apply (tarr_closed TK (fun i => i_L2s (S i)) (fun i => i_L2s (S' i))); [apply (Q _ i_L2s)|assumption].
  - apply (tarr_closed TK (fun i => i_priors (S i)) (fun i => i_priors (S' i))); [apply (Q _ i_priors)|assumption].
  - apply (tarr_closed TD (fun i => i_preds (S i)) (fun i => i_preds (S' i))); [apply (Q _ i_preds)|assumption].
  - apply (tarr_closed TV (fun i => i_chain (S i)) (fun i => i_chain (S' i))); [apply (Q _ i_chain)|assumption].
  - apply (same_closed (fun i => i_acc (S i)) (fun i => i_acc (S' i))); [apply (Q _ i_acc)|assumption].
  - apply (tarr_closed TP (fun i => i_deltas (S i)) (fun i => i_deltas (S' i))); [apply (Q _ i_deltas)|assumption].
  - apply (CP (fun i => i_delta (S i)) (fun i => i_delta (S' i))); [apply (Q _ i_delta)|assumption].
  - apply (tlist_closed tevent (fun i => i_out (S i)) (fun i => i_out (S' i))); [apply (Q _ i_out)|assumption].
Qed.
Lemma tworld_closed : closed tworld.
Proof.
  intros w w' v E (H1 & H2). split.
  - apply (tinst_closed _ (fun i => w_inst (w' i))); [|exact H1]. apply near_mono with (2 := E). intros; congruence.
  - apply (same_closed _ (fun i => w_rng (w' i))); [|exact H2]. apply near_mono with (2 := E). intros; congruence.
Qed.

Notation M := (@M V D K P G).
(** at one world, and in general *)
Definition tat {A B} (T : (J -> A) -> B -> Prop) (r : J -> world V D K P G * outcome A) (s : world V D K P G * outcome B) : Prop :=
  tworld (fun i => fst (r i)) (fst s) /\ tout T (fun i => snd (r i)) (snd s).
Definition tsim {A B} (T : (J -> A) -> B -> Prop) (m : J -> M A) (n : M B) : Prop :=
  forall w v, tworld w v -> tat T (fun i => m i (w i)) (n v).
Lemma tat_ext {A B} (T : (J -> A) -> B -> Prop) r r' s : near (fun i => r i = r' i) -> tat T r' s -> tat T r s.
Proof.
  intros E (H1 & H2). split.
  - apply (tworld_closed _ (fun i => fst (r' i))); [|exact H1]. apply near_mono with (2 := E). intros; congruence.
  - destruct (snd s) as [b|e|]; cbn in *.
    + destruct H2 as (a & N & H). exists a. split; [|exact H]. apply (near2 _ _ _ E N). congruence.
    + apply (near2 _ _ _ E H2). congruence.
    + apply (near2 _ _ _ E H2). congruence.
Qed.

Lemma ts_ret {A B} (T : (J -> A) -> B -> Prop) a b : T a b -> tsim T (fun i => ret (a i)) (ret b).
Proof. intros H w v W. split; [exact W|]. exists a. split; [now apply near_true|exact H]. Qed.
Lemma ts_throw {A B} (T : (J -> A) -> B -> Prop) e : tsim T (fun _ => throw e) (throw e).
Proof. intros w v W. split; [exact W|]. now apply near_true. Qed.
Lemma ts_nofuel {A B} (T : (J -> A) -> B -> Prop) : tsim T (fun _ => no_fuel) no_fuel.
Proof. intros w v W. split; [exact W|]. now apply near_true. Qed.
Lemma tat_bind {A B A' B'} (T : (J -> A) -> B -> Prop) (T' : (J -> A') -> B' -> Prop) (m : J -> M A) (n : M B) (k : J -> A -> M A') (l : B -> M B') w v :
  tat T (fun i => m i (w i)) (n v) ->
  (forall a b, snd (n v) = Ret b -> T a b -> tat T' (fun i => k i (a i) (fst (m i (w i)))) (l b (fst (n v)))) ->
  tat T' (fun i => bind (m i) (k i) (w i)) (bind n l v).
Proof.
  intros (H1 & H2) HK. unfold bind at 2. destruct (n v) as [v' [b|e|]] eqn:E; cbn [fst snd tout] in *.
  - destruct H2 as (a & N & H). apply (tat_ext _ _ (fun i => k i (a i) (fst (m i (w i))))); [|now apply HK].
    apply near_mono with (2 := N). intros i Ei. unfold bind. destruct (m i (w i)) as [w' o]. cbn in *. now subst.
  - split; cbn.
    + apply (tworld_closed _ (fun i => fst (m i (w i)))); [|exact H1]. apply near_mono with (2 := H2). intros i Ei. unfold bind. destruct (m i (w i)) as [w' o]. cbn in *. now subst.
    + apply near_mono with (2 := H2). intros i Ei. unfold bind. destruct (m i (w i)) as [w' o]. cbn in *. now subst.
  - split; cbn.
    + apply (tworld_closed _ (fun i => fst (m i (w i)))); [|exact H1]. apply near_mono with (2 := H2). intros i Ei. unfold bind. destruct (m i (w i)) as [w' o]. cbn in *. now subst.
    + apply near_mono with (2 := H2). intros i Ei. unfold bind. destruct (m i (w i)) as [w' o]. cbn in *. now subst.
Qed.
Lemma ts_bind {A B A' B'} (T : (J -> A) -> B -> Prop) (T' : (J -> A') -> B' -> Prop) m n (k : J -> A -> M A') (l : B -> M B') :
  tsim T m n -> (forall a b, T a b -> tsim T' (fun i => k i (a i)) (l b)) -> tsim T' (fun i => bind (m i) (k i)) (bind n l).
Proof.
  intros Hm Hk w v W. apply (tat_bind T); [now apply Hm|]. intros a b _ H. apply (Hk a b H (fun i => fst (m i (w i)))). exact (proj1 (Hm w v W)).
Qed.
Lemma ts_ext {A B} (T : (J -> A) -> B -> Prop) (m m' : J -> M A) n : near (fun i => m i = m' i) -> tsim T m' n -> tsim T m n.
Proof. intros E H w v W. apply (tat_ext _ _ (fun i => m' i (w i))); [|now apply H]. apply near_mono with (2 := E). intros; congruence. Qed.
Lemma ts_lift {A B} (T : (J -> A) -> B -> Prop) r s : tres T r s -> tsim T (fun i => lift (r i)) (lift s).
Proof.
  destruct s as [b|e]; cbn.
  - intros (a & N & H). apply (ts_ext _ _ (fun i => ret (a i))); [|now apply ts_ret]. apply near_mono with (2 := N). intros i ->. reflexivity.
  - intros N. apply (ts_ext _ _ (fun i => throw e)); [|apply ts_throw]. apply near_mono with (2 := N). intros i ->. reflexivity.
Qed.
Lemma ts_rng {A B} (T : (J -> A) -> B -> Prop) f h :
  (forall g, tres T (fun i => fst (f i g)) (fst (h g)) /\ same (fun i => snd (f i g)) (snd (h g))) -> tsim T (fun i => with_rng (f i)) (with_rng h).
Proof.
  intros H w v (W1 & W2). destruct (H (w_rng v)) as (Hr & Hg). unfold with_rng. destruct (h (w_rng v)) as [s g']. cbn [fst snd] in *.
  apply (tat_ext _ _ (fun i => lift (fst (f i (w_rng v))) (mkWorld (w_inst (w i)) g'))).
  - apply (near2 _ _ _ W2 Hg). intros i E1 E2. rewrite E1. destruct (f i (w_rng v)) as [r g2]. cbn in *. now subst.
  - apply (ts_lift T _ _ Hr (fun i => mkWorld (w_inst (w i)) g')). split; [exact W1|now apply near_true].
Qed.
Lemma ts_get : tsim tinst (fun _ => get_inst) get_inst.
Proof. intros w v W. split; [exact W|]. exists (fun i => w_inst (w i)). split; [now apply near_true|exact (proj1 W)]. Qed.
Lemma ts_put s t : tinst s t -> tsim same (fun i => put_inst (s i)) (put_inst t).
Proof. intros H w v W. split; [split; [exact H|exact (proj2 W)]|]. exists (fun _ => tt). split; [now apply near_true|apply same_const]. Qed.

Ltac ifields H := destruct H as [H1 H2 H3 H4 H5 H6 H7 H8 H9]; constructor; cbn; auto.

Lemma ts_print e e' : tevent e e' -> tsim same (fun i => print (e i)) (print e').
Proof.
  intros H. unfold print. apply (ts_bind tinst _ (fun _ => get_inst) _ (fun i s => put_inst (set_out (i_out s ++ [e i]) s))); [apply ts_get|]. intros s t Hs. apply (ts_put (fun i => set_out (i_out (s i) ++ [e i]) (s i))).
  ifields Hs. apply tlist_app; [exact H9|]. now apply tlist_one.
Qed.
Lemma ts_print_const e : e = EvBurning \/ e = EvDone -> tsim same (fun _ => print e) (print e).
Proof. intros H. apply (ts_print (fun _ => e)). destruct H as [-> | ->]; now apply near_true. Qed.

Lemma ts_store {A} (T : (J -> A) -> A -> Prop) get set j (x : J -> res A) (y : res A) :
  (forall s t, tinst s t -> tarr T (fun i => get (s i)) (get t)) ->
  (forall s t a b, tinst s t -> tarr T a b -> tinst (fun i => set (a i) (s i)) (set b t)) ->
  tres T x y -> tsim same (fun i => store get set j (x i)) (store get set j y).
Proof.
  intros Hg Hs Hv. unfold store. eapply (ts_bind tinst _ (fun _ => get_inst) _ (fun i s => match get s with None => ret tt | Some l => do a <- lift (x i); do l' <- lift (py_setitem l j a); put_inst (set (Some l') s) end)); [apply ts_get|].
  intros s t Hst. specialize (Hg s t Hst). destruct (get t) as [m|]; cbn in Hg.
  - destruct Hg as (L & N & HL). apply (ts_ext _ _ (fun i => do a <- lift (x i); do l' <- lift (py_setitem (L i) j a); put_inst (set (Some l') (s i)))).
    { apply near_mono with (2 := N). intros i ->. reflexivity. }
    apply (ts_bind T _ (fun i => lift (x i)) _ (fun i a => do l' <- lift (py_setitem (L i) j a); put_inst (set (Some l') (s i)))); [now apply ts_lift|]. intros a b Hab.
    apply (ts_bind (tlist T) _ (fun i => lift (py_setitem (L i) j (a i))) _ (fun i l' => put_inst (set (Some l') (s i)))); [apply ts_lift; now apply tlist_setitem|].
    intros l' m' Hl. apply (ts_put (fun i => set (Some (l' i)) (s i))). apply (Hs s t (fun i => Some (l' i))); [exact Hst|]. now apply tarr_some.
  - apply (ts_ext _ _ (fun _ => ret tt)); [|apply (ts_ret same (fun _ => tt)), same_const]. apply near_mono with (2 := Hg). intros i ->. reflexivity.
Qed.
Lemma ts_read {A} (T : (J -> A) -> A -> Prop) (get : inst V D K P -> option (list A)) k :
  (forall s t, tinst s t -> tarr T (fun i => get (s i)) (get t)) -> tsim T (fun _ => read_attr get k) (read_attr get k).
Proof.
  intros Hg. unfold read_attr. apply (ts_bind tinst _ (fun _ => get_inst) _ (fun _ s => match get s with None => throw AttributeError | Some l => lift (py_index l k) end)); [apply ts_get|].
  intros s t Hst. specialize (Hg s t Hst). destruct (get t) as [m|]; cbn in Hg.
  - destruct Hg as (L & N & HL). apply (ts_ext _ _ (fun i => lift (py_index (L i) k))); [apply near_mono with (2 := N); intros i ->; reflexivity|]. apply ts_lift. now apply tlist_index.
  - apply (ts_ext _ _ (fun _ => throw AttributeError)); [apply near_mono with (2 := Hg); intros i ->; reflexivity|apply ts_throw].
Qed.
Lemma ts_print_saved j : tsim same (fun _ => print_saved j) (print_saved j).
Proof.
  unfold print_saved.
  apply (ts_bind TK _ (fun _ => read_attr i_logPi (j - 1)) _ (fun _ lp => do l2 <- read_attr i_L2s (j - 1); do pr <- read_attr i_priors (j - 1); print (EvProgress (j - 1 + 1) lp l2 pr None))); [apply (ts_read TK); apply ti_logPi|]. intros a a' Ha.
  apply (ts_bind TK _ (fun _ => read_attr i_L2s (j - 1)) _ (fun i l2 => do pr <- read_attr i_priors (j - 1); print (EvProgress (j - 1 + 1) (a i) l2 pr None))); [apply (ts_read TK); apply ti_L2s|]. intros b b' Hb.
  apply (ts_bind TK _ (fun _ => read_attr i_priors (j - 1)) _ (fun i pr => print (EvProgress (j - 1 + 1) (a i) (b i) pr None))); [apply (ts_read TK); apply ti_priors|]. intros c c' Hc.
  apply (ts_print (fun i => EvProgress (j - 1 + 1) (a i) (b i) (c i) None)). exists a, b, c. split; [now apply near_true|]. auto.
Qed.
Lemma ts_append_acc a : tsim same (fun _ => append_acc a) (append_acc a).
Proof.
  unfold append_acc. apply (ts_bind tinst _ (fun _ => get_inst) _ (fun _ s => match i_acc s with None => throw AttributeError | Some l => put_inst (set_acc (Some (l ++ [a])) s) end)); [apply ts_get|].
  intros s t Hst. assert (HA := ti_acc _ _ Hst). unfold same in HA. destruct (i_acc t) as [l|] eqn:ET.
  - apply (ts_ext _ _ (fun i => put_inst (set_acc (Some (l ++ [a])) (s i)))); [apply near_mono with (2 := HA); intros i ->; reflexivity|].
    apply (ts_put (fun i => set_acc (Some (l ++ [a])) (s i))). ifields Hst. apply same_const.
  - apply (ts_ext _ _ (fun _ => throw AttributeError)); [apply near_mono with (2 := HA); intros i ->; reflexivity|apply ts_throw].
Qed.
Lemma ts_append_delta : tsim same (fun _ => append_delta) append_delta.
Proof.
  unfold append_delta. apply (ts_bind tinst _ (fun _ => get_inst) _ (fun _ s => match i_deltas s with None => throw AttributeError | Some l => put_inst (set_deltas (Some (l ++ [i_delta s])) s) end)); [apply ts_get|].
  intros s t Hst. assert (HA := ti_deltas _ _ Hst). destruct (i_deltas t) as [l|] eqn:ET; cbn in HA.
  - destruct HA as (L & N & HL). apply (ts_ext _ _ (fun i => put_inst (set_deltas (Some (L i ++ [i_delta (s i)])) (s i)))); [apply near_mono with (2 := N); intros i ->; reflexivity|].
    apply (ts_put (fun i => set_deltas (Some (L i ++ [i_delta (s i)])) (s i))). ifields Hst. apply tarr_some. apply tlist_app; [exact HL|]. now apply (tlist_one TP (fun i => i_delta (s i))).
  - apply (ts_ext _ _ (fun _ => throw AttributeError)); [apply near_mono with (2 := HA); intros i ->; reflexivity|apply ts_throw].
Qed.

(** the operations *)
Definition ttri (t : J -> K * K * K) (u : K * K * K) : Prop :=
  TK (fun i => fst (fst (t i))) (fst (fst u)) /\ TK (fun i => snd (fst (t i))) (snd (fst u)) /\ TK (fun i => snd (t i)) (snd u).
Variable o : J -> ops V D K P G IS.
Variable u : ops V D K P G IS.
Variable TI : (J -> IS) -> IS -> Prop.
Definition tdrawn {A B} (T : (J -> A) -> B -> Prop) (r : J -> res A * G) (s : res B * G) : Prop :=
  tres T (fun i => fst (r i)) (fst s) /\ same (fun i => snd (r i)) (snd s).
Record tops : Prop := {
  to_init : forall a b g, TI a b -> tdrawn TV (fun i => o_init (o i) (a i) g) (o_init u b g);
  to_forward : forall x y, TV x y -> tres TD (fun i => o_forward (o i) (x i)) (o_forward u y);
  to_gradg : forall x y, TD x y -> tres TV (fun i => o_gradg (o i) (x i)) (o_gradg u y);
  to_proxf : forall x y, TV x y -> tres TV (fun i => o_proxf (o i) (x i)) (o_proxf u y);
  to_logpi : forall x y d e, TV x y -> TD d e -> tres ttri (fun i => o_logpi (o i) (x i) (d i)) (o_logpi u y e);
  to_step : forall p p' x x' y y' z z' g, TP p p' -> TV x x' -> TV y y' -> TV z z' ->
    tdrawn TV (fun i => o_step (o i) (p i) (x i) (y i) (z i) g) (o_step u p' x' y' z' g);
  to_logtrans : forall p p' x x' y y' z z' t t', TP p p' -> TV x x' -> TV y y' -> TV z z' -> TV t t' ->
    tres TK (fun i => o_logtrans (o i) (p i) (x i) (y i) (z i) (t i)) (o_logtrans u p' x' y' z' t');
  to_logrand : forall g, TU (fun i => fst (o_logrand (o i) g)) (fst (o_logrand u g)) /\ same (fun i => snd (o_logrand (o i) g)) (snd (o_logrand u g));
  to_kadd : forall a a' b b', TK a a' -> TK b b' -> TK (fun i => o_kadd (o i) (a i) (b i)) (o_kadd u a' b');
  to_ksub : forall a a' b b', TK a a' -> TK b b' -> TK (fun i => o_ksub (o i) (a i) (b i)) (o_ksub u a' b');
  to_kltb : forall a a' b b', TU a a' -> TK b b' -> o_kltb u a' b' = negb (o_kltb u b' a') -> same (fun i => o_kltb (o i) (a i) (b i)) (o_kltb u a' b');
  to_tune : forall p p' a k, TP p p' -> (0 <= k)%Z -> TP (fun i => o_tune (o i) (p i) a k) (o_tune u p' a k);
  to_rowV : forall x y, TV x y -> tres TV (fun i => o_rowV (o i) (x i)) (o_rowV u y);
  to_rowD : forall x y, TD x y -> tres TD (fun i => o_rowD (o i) (x i)) (o_rowD u y);
  to_rowK : forall a b, TK a b -> TK (fun i => o_rowK (o i) (a i)) (o_rowK u b) }.
Definition tskstep : Prop := forall p p' x x' g, TP p p' -> TV x x' -> tdrawn TV (fun i => o_skstep (o i) (p i) (x i) g) (o_skstep u p' x' g).

Hypothesis HO : tops.

Lemma ts_tracking j x y d e a b c a' b' c' : TV x y -> TD d e -> TK a a' -> TK b b' -> TK c c' ->
  tsim same (fun i => tracking (o i) j (x i) (d i) (a i) (b i) (c i)) (tracking u j y e a' b' c').
Proof.
  intros Hx Hd Ha Hb Hc. unfold tracking.
  assert (RK : forall a b, TK a b -> tres TK (fun i => Ok (o_rowK (o i) (a i))) (Ok (o_rowK u b))).
  { intros a0 b0 H. exists (fun i => o_rowK (o i) (a0 i)). split; [now apply near_true|now apply (to_rowK HO)]. }
  apply (ts_bind same _ (fun i => store i_logPi set_logPi j (Ok (o_rowK (o i) (a i)))) _ (fun i _ => do _ <- store i_L2s set_L2s j (Ok (o_rowK (o i) (b i))); do _ <- store i_priors set_priors j (Ok (o_rowK (o i) (c i))); do _ <- store i_preds set_preds j (o_rowD (o i) (d i)); store i_chain set_chain j (o_rowV (o i) (x i))));
    [apply (ts_store TK _ _ _ (fun i => Ok (o_rowK (o i) (a i)))); [apply ti_logPi|intros s t l m Hs Hl; ifields Hs|now apply RK]|intros _ _ _].
  apply (ts_bind same _ (fun i => store i_L2s set_L2s j (Ok (o_rowK (o i) (b i)))) _ (fun i _ => do _ <- store i_priors set_priors j (Ok (o_rowK (o i) (c i))); do _ <- store i_preds set_preds j (o_rowD (o i) (d i)); store i_chain set_chain j (o_rowV (o i) (x i))));
    [apply (ts_store TK _ _ _ (fun i => Ok (o_rowK (o i) (b i)))); [apply ti_L2s|intros s t l m Hs Hl; ifields Hs|now apply RK]|intros _ _ _].
  apply (ts_bind same _ (fun i => store i_priors set_priors j (Ok (o_rowK (o i) (c i)))) _ (fun i _ => do _ <- store i_preds set_preds j (o_rowD (o i) (d i)); store i_chain set_chain j (o_rowV (o i) (x i))));
    [apply (ts_store TK _ _ _ (fun i => Ok (o_rowK (o i) (c i)))); [apply ti_priors|intros s t l m Hs Hl; ifields Hs|now apply RK]|intros _ _ _].
  apply (ts_bind same _ (fun i => store i_preds set_preds j (o_rowD (o i) (d i))) _ (fun i _ => store i_chain set_chain j (o_rowV (o i) (x i))));
    [apply (ts_store TD _ _ _ (fun i => o_rowD (o i) (d i))); [apply ti_preds|intros s t l m Hs Hl; ifields Hs|now apply (to_rowD HO)]|intros _ _ _].
  apply (ts_store TV _ _ _ (fun i => o_rowV (o i) (x i))); [apply ti_chain|intros s t l m Hs Hl; ifields Hs|now apply (to_rowV HO)].
Qed.
Lemma ts_tune k : (0 <= k)%Z -> tsim same (fun i => tune_delta (o i) k) (tune_delta u k).
Proof.
  intros Hk. unfold tune_delta.
  apply (ts_bind same _ (fun _ => read_attr i_acc k) _ (fun i a => do s <- get_inst; put_inst (set_delta (o_tune (o i) (i_delta s) a k) s))).
  { apply (ts_read same). intros s t Hst. assert (H := ti_acc _ _ Hst). unfold same in H. destruct (i_acc t) as [l|]; [|exact H]. exists (fun _ => l). split; [exact H|].
    exists (map (fun z _ => z) l). split; [apply near_true; intros i; rewrite map_map; symmetry; apply map_id|]. clear H. induction l; constructor; [apply same_const|assumption]. }
  intros a a' Ha. apply (ts_ext _ _ (fun i => do s <- get_inst; put_inst (set_delta (o_tune (o i) (i_delta s) a' k) s))); [apply near_mono with (2 := Ha); intros i ->; reflexivity|].
  apply (ts_bind tinst _ (fun _ => get_inst) _ (fun i s => put_inst (set_delta (o_tune (o i) (i_delta s) a' k) s))); [apply ts_get|]. intros s t Hst.
  apply (ts_put (fun i => set_delta (o_tune (o i) (i_delta (s i)) a' k) (s i))). ifields Hst. now apply (to_tune HO (fun i => i_delta (s i))).
Qed.
Definition tvd (p : J -> V * D) (q : V * D) : Prop := TV (fun i => fst (p i)) (fst q) /\ TD (fun i => snd (p i)) (snd q).
Lemma ts_initial a b : TI a b -> tsim tvd (fun i => initial_sample (o i) (a i)) (initial_sample u b).
Proof.
  intros H. unfold initial_sample.
  apply (ts_bind TV _ (fun i => with_rng (o_init (o i) (a i))) _ (fun i X => do d <- lift (o_forward (o i) X); ret (X, d))); [apply (ts_rng TV (fun i => o_init (o i) (a i))); intros g; now apply (to_init HO)|].
  intros x y Hx. apply (ts_bind TD _ (fun i => lift (o_forward (o i) (x i))) _ (fun i d => ret (x i, d))); [now apply ts_lift, (to_forward HO)|].
  intros d e Hd. apply (ts_ret tvd (fun i => (x i, d i))). now split.
Qed.

Variable prm : params.
Definition tjvd (p : J -> Z * V * D) (q : Z * V * D) : Prop :=
  same (fun i => fst (fst (p i))) (fst (fst q)) /\ TV (fun i => snd (fst (p i))) (snd (fst q)) /\ TD (fun i => snd (p i)) (snd q).

Lemma ts_save k j x y d e : TV x y -> TD d e ->
  tsim same (fun i => if grid_hit prm k then
             do t <- lift (o_logpi (o i) (x i) (d i));
             let '(logPi, L2, prior) := t in
             do _ <- tracking (o i) j (x i) (d i) logPi L2 prior; ret (j + 1)%Z
           else ret j)
          (if grid_hit prm k then
             do t <- lift (o_logpi u y e);
             let '(logPi, L2, prior) := t in
             do _ <- tracking u j y e logPi L2 prior; ret (j + 1)%Z
           else ret j).
Proof.
  intros Hx Hd. destruct (grid_hit prm k); [|apply (ts_ret same (fun _ => j)), same_const].
  apply (ts_bind ttri _ (fun i => lift (o_logpi (o i) (x i) (d i))) _ (fun i t => let '(logPi, L2, prior) := t in do _ <- tracking (o i) j (x i) (d i) logPi L2 prior; ret (j + 1)%Z)); [now apply ts_lift, (to_logpi HO)|].
  intros t [[a' b'] c'] (Ha & Hb & Hc). cbn [fst snd] in *.
  apply (ts_ext _ _ (fun i => do _ <- tracking (o i) j (x i) (d i) (fst (fst (t i))) (snd (fst (t i))) (snd (t i)); ret (j + 1)%Z)); [apply near_true; intros i; now destruct (t i) as [[? ?] ?]|].
  apply (ts_bind same _ (fun i => tracking (o i) j (x i) (d i) (fst (fst (t i))) (snd (fst (t i))) (snd (t i))) _ (fun _ _ => ret (j + 1)%Z));
    [apply (ts_tracking j x y d e (fun i => fst (fst (t i))) (fun i => snd (fst (t i))) (fun i => snd (t i))); assumption|].
  intros _ _ _. apply (ts_ret same (fun _ => (j + 1)%Z)), same_const.
Qed.
Lemma ts_if (c : bool) (m m' : J -> M unit) n n' : tsim same m n -> tsim same m' n' -> tsim same (fun i => if c then m i else m' i) (if c then n else n').
Proof. intros H H'. destruct c; assumption. Qed.
Lemma ts_nothing : tsim same (fun _ => ret tt) (ret tt).
Proof. apply (ts_ret same (fun _ => tt)), same_const. Qed.

Lemma ts_myula_body k j x y d e : TV x y -> TD d e ->
  tsim tjvd (fun i => myula_body (o i) prm k j (x i) (d i)) (myula_body u prm k j y e).
Proof.
  intros Hx Hd. unfold myula_body.
  eapply (ts_bind TV _ (fun i => lift (o_gradg (o i) (d i)))); [now apply ts_lift, (to_gradg HO)|]. intros gr gr' Hgr. cbv beta.
  eapply (ts_bind TV _ (fun i => lift (o_proxf (o i) (x i)))); [now apply ts_lift, (to_proxf HO)|]. intros p p' Hp. cbv beta.
  eapply (ts_bind tinst _ (fun _ => get_inst)); [apply ts_get|]. intros s t Hst. cbv beta.
  eapply (ts_bind TV _ (fun i => with_rng (o_step (o i) (i_delta (s i)) (x i) (p i) (gr i)))).
  { apply (ts_rng TV (fun i => o_step (o i) (i_delta (s i)) (x i) (p i) (gr i))). intros g. apply (to_step HO (fun i => i_delta (s i))); auto. apply (ti_delta _ _ Hst). }
  intros x' y' Hx'. cbv beta. eapply (ts_bind TD _ (fun i => lift (o_forward (o i) (x' i)))); [now apply ts_lift, (to_forward HO)|]. intros d' e' Hd'. cbv beta.
  destruct (p_nburn prm <=? k)%Z.
  - eapply (ts_bind same); [exact (ts_save k j x' y' d' e' Hx' Hd')|]. intros j1 j2 Hj. cbv beta.
    apply (ts_ext _ _ (fun i => do _ <- (if progress_due prm k then print_saved j2 else ret tt); ret (j2, x' i, d' i))); [apply near_mono with (2 := Hj); intros i ->; reflexivity|].
    eapply (ts_bind same _ (fun _ => if progress_due prm k then print_saved j2 else ret tt)); [apply (ts_if _ (fun _ => print_saved j2) (fun _ => ret tt)); [apply ts_print_saved|apply ts_nothing]|]. intros _ _ _. cbv beta.
    apply (ts_ret tjvd (fun i => (j2, x' i, d' i))). split; [now apply near_true|]. split; assumption.
  - eapply (ts_bind same _ (fun _ => if progress_due prm k then print EvBurning else ret tt)); [apply (ts_if _ (fun _ => print EvBurning) (fun _ => ret tt)); [apply ts_print_const; auto|apply ts_nothing]|]. intros _ _ _. cbv beta.
    apply (ts_ret tjvd (fun i => (j, x' i, d' i))). split; [now apply near_true|]. split; assumption.
Qed.
Lemma ts_done : tsim same (fun _ => print EvDone) (print EvDone).
Proof. apply ts_print_const. auto. Qed.
Lemma ts_myula_loop fuel : forall k j x y d e, TV x y -> TD d e ->
  tsim same (fun i => myula_loop (o i) prm fuel k j (x i) (d i)) (myula_loop u prm fuel k j y e).
Proof.
  induction fuel as [|fuel IH]; intros k j x y d e Hx Hd; cbn [myula_loop]; destruct (j <? p_nsamples prm)%Z; try apply ts_done; [apply ts_nofuel|].
  eapply (ts_bind tjvd); [exact (ts_myula_body k j x y d e Hx Hd)|]. intros r [[j2 x2] d2] (E & Hx1 & Hd1). cbn [fst snd] in *. cbv beta.
  apply (ts_ext _ _ (fun i => myula_loop (o i) prm fuel (k + 1) j2 (snd (fst (r i))) (snd (r i)))); [apply near_mono with (2 := E); intros i; destruct (r i) as [[? ?] ?]; cbn; intros ->; reflexivity|].
  now apply (IH (k + 1)%Z j2 (fun i => snd (fst (r i))) x2 (fun i => snd (r i)) d2).
Qed.
Lemma ts_myula fuel a b : TI a b -> tsim same (fun i => myula_run (o i) prm fuel (a i)) (myula_run u prm fuel b).
Proof.
  intros H. unfold myula_run. eapply (ts_bind tvd); [exact (ts_initial a b H)|]. intros r [y e] (Hx & Hd). cbn [fst snd] in *. cbv beta.
  apply (ts_ext _ _ (fun i => myula_loop (o i) prm fuel 0 0 (fst (r i)) (snd (r i)))); [apply near_true; intros i; now destruct (r i)|].
  now apply (ts_myula_loop fuel 0 0 (fun i => fst (r i)) y (fun i => snd (r i)) e).
Qed.

Section Sk.
Hypothesis HSK : tskstep.
Lemma ts_skrock_body k j x y d e : TV x y -> TD d e ->
  tsim tjvd (fun i => skrock_body (o i) prm k j (x i) (d i)) (skrock_body u prm k j y e).
Proof.
  intros Hx Hd. unfold skrock_body. eapply (ts_bind tinst _ (fun _ => get_inst)); [apply ts_get|]. intros s t Hst. cbv beta.
  eapply (ts_bind TV _ (fun i => with_rng (o_skstep (o i) (i_delta (s i)) (x i)))).
  { apply (ts_rng TV (fun i => o_skstep (o i) (i_delta (s i)) (x i))). intros g. apply (HSK (fun i => i_delta (s i))); auto. apply (ti_delta _ _ Hst). }
  intros x' y' Hx'. cbv beta. eapply (ts_bind TD _ (fun i => lift (o_forward (o i) (x' i)))); [now apply ts_lift, (to_forward HO)|]. intros d' e' Hd'. cbv beta.
  eapply (ts_bind same). { destruct (p_nburn prm <=? k)%Z; [exact (ts_save k j x' y' d' e' Hx' Hd')|apply (ts_ret same (fun _ => j)), same_const]. } intros j1 j2 Hj. cbv beta.
  apply (ts_ext _ _ (fun i => do _ <- (if progress_due prm k then print_saved j2 else ret tt); ret (j2, x' i, d' i))); [apply near_mono with (2 := Hj); intros i ->; reflexivity|].
  eapply (ts_bind same _ (fun _ => if progress_due prm k then print_saved j2 else ret tt)); [apply (ts_if _ (fun _ => print_saved j2) (fun _ => ret tt)); [apply ts_print_saved|apply ts_nothing]|]. intros _ _ _. cbv beta.
  apply (ts_ret tjvd (fun i => (j2, x' i, d' i))). split; [now apply near_true|]. split; assumption.
Qed.
Lemma ts_skrock_loop fuel : forall k j x y d e, TV x y -> TD d e ->
  tsim same (fun i => skrock_loop (o i) prm fuel k j (x i) (d i)) (skrock_loop u prm fuel k j y e).
Proof.
  induction fuel as [|fuel IH]; intros k j x y d e Hx Hd; cbn [skrock_loop]; destruct (j <? p_nsamples prm)%Z; try apply ts_done; [apply ts_nofuel|].
  eapply (ts_bind tjvd); [exact (ts_skrock_body k j x y d e Hx Hd)|]. intros r [[j2 x2] d2] (E & Hx1 & Hd1). cbn [fst snd] in *. cbv beta.
  apply (ts_ext _ _ (fun i => skrock_loop (o i) prm fuel (k + 1) j2 (snd (fst (r i))) (snd (r i)))); [apply near_mono with (2 := E); intros i; destruct (r i) as [[? ?] ?]; cbn; intros ->; reflexivity|].
  now apply (IH (k + 1)%Z j2 (fun i => snd (fst (r i))) x2 (fun i => snd (r i)) d2).
Qed.
Lemma ts_skrock fuel a b : TI a b -> tsim same (fun i => skrock_run (o i) prm fuel (a i)) (skrock_run u prm fuel b).
Proof.
  intros H. unfold skrock_run. eapply (ts_bind tvd); [exact (ts_initial a b H)|]. intros r [y e] (Hx & Hd). cbn [fst snd] in *. cbv beta.
  apply (ts_ext _ _ (fun i => skrock_loop (o i) prm fuel 0 0 (fst (r i)) (snd (r i)))); [apply near_true; intros i; now destruct (r i)|].
  now apply (ts_skrock_loop fuel 0 0 (fun i => fst (r i)) y (fun i => snd (r i)) e).
Qed.
End Sk.

(** ** PxMALA *)

(** the body in two halves, before and after the decision *)
Definition pre (o : ops V D K P G IS) (c : mala_state V D K) : M (mala_state V D K * K * K) :=
  do s <- get_inst;
  do X_prop <- with_rng (o_step o (i_delta s) (m_X c) (m_proxf c) (m_gradg c));
  do prop_preds <- lift (o_forward o X_prop);
  do gradg_prop <- lift (o_gradg o prop_preds);
  do proxf_prop <- lift (o_proxf o X_prop);
  do q1 <- lift (o_logtrans o (i_delta s) (m_X c) X_prop (m_proxf c) (m_gradg c));
  do q2 <- lift (o_logtrans o (i_delta s) X_prop (m_X c) proxf_prop gradg_prop);
  do t <- lift (o_logpi o X_prop prop_preds);
  let '(logpiXp, L2Xp, priorXp) := t in
  do logu <- with_rng (fun g => let (u, g') := o_logrand o g in (Ok u, g'));
  ret (mkMala X_prop prop_preds gradg_prop proxf_prop logpiXp L2Xp priorXp, logu, o_ksub o (o_ksub o (o_kadd o q2 logpiXp) q1) (m_logpi c)).
Definition rest (o : ops V D K P G IS) (tune : bool) (k j : Z) (accept : bool) (c' : mala_state V D K) : M (Z * mala_state V D K) :=
  do _ <- (if tune then do _ <- tune_delta o k; append_delta else ret tt);
  do j' <- (if (p_nburn prm <=? k)%Z then
              if grid_hit prm k && accept then
                do _ <- tracking o j (m_X c') (m_preds c') (m_logpi c') (m_L2 c') (m_prior c');
                ret (j + 1)%Z
              else ret j
            else ret j);
  do _ <- (if progress_due prm k then
             do s' <- get_inst;
             print (EvProgress (j' - 1 + 1) (m_logpi c') (m_L2 c') (m_prior c') (i_acc s'))
           else ret tt);
  ret (j', c').
Definition post (o : ops V D K P G IS) (tune : bool) (k j : Z) (c c1 : mala_state V D K) (accept : bool) : M (Z * mala_state V D K) :=
  do _ <- append_acc (if accept then 1 else 0);
  rest o tune k j accept (if accept then c1 else c).
Lemma body_split o0 tune k j c w : pxmala_body o0 prm tune k j c w =
  bind (pre o0 c) (fun r => post o0 tune k j c (fst (fst r)) (o_kltb o0 (snd (fst r)) (snd r))) w.
Proof.
  unfold pxmala_body, pre, bind, get_inst, ret. cbn [fst snd].
  destruct (with_rng (o_step o0 (i_delta (w_inst w)) (m_X c) (m_proxf c) (m_gradg c)) w) as [w1 [X1|e|]]; try reflexivity.
  destruct (lift (o_forward o0 X1) w1) as [w2 [d1|e|]]; try reflexivity.
  destruct (lift (o_gradg o0 d1) w2) as [w3 [g1|e|]]; try reflexivity.
  destruct (lift (o_proxf o0 X1) w3) as [w4 [p1|e|]]; try reflexivity.
  destruct (lift (o_logtrans o0 (i_delta (w_inst w)) (m_X c) X1 (m_proxf c) (m_gradg c)) w4) as [w5 [q1|e|]]; try reflexivity.
  destruct (lift (o_logtrans o0 (i_delta (w_inst w)) X1 (m_X c) p1 g1) w5) as [w6 [q2|e|]]; try reflexivity.
  destruct (lift (o_logpi o0 X1 d1) w6) as [w7 [[[a b] k0]|e|]]; try reflexivity.
  destruct (with_rng _ w7) as [w8 [lu|e|]]; try reflexivity. cbn [fst snd].
  destruct (o_kltb o0 lu _); unfold post, bind, ret; destruct (append_acc _ w8) as [w9 [[]|e|]]; reflexivity.
Qed.

Record tmala (c : J -> mala_state V D K) (e : mala_state V D K) : Prop := {
  tm_X : TV (fun i => m_X (c i)) (m_X e); tm_preds : TD (fun i => m_preds (c i)) (m_preds e);
  tm_gradg : TV (fun i => m_gradg (c i)) (m_gradg e); tm_proxf : TV (fun i => m_proxf (c i)) (m_proxf e);
  tm_logpi : TK (fun i => m_logpi (c i)) (m_logpi e); tm_L2 : TK (fun i => m_L2 (c i)) (m_L2 e); tm_prior : TK (fun i => m_prior (c i)) (m_prior e) }.
Definition tpre (r : J -> mala_state V D K * K * K) (s : mala_state V D K * K * K) : Prop :=
  tmala (fun i => fst (fst (r i))) (fst (fst s)) /\ TU (fun i => snd (fst (r i))) (snd (fst s)) /\ TK (fun i => snd (r i)) (snd s).
Definition tjm (p : J -> Z * mala_state V D K) (q : Z * mala_state V D K) : Prop := same (fun i => fst (p i)) (fst q) /\ tmala (fun i => snd (p i)) (snd q).

Lemma ts_pre c e : tmala c e -> tsim tpre (fun i => pre (o i) (c i)) (pre u e).
Proof.
  intros [C1 C2 C3 C4 C5 C6 C7]. unfold pre. eapply (ts_bind tinst _ (fun _ => get_inst)); [apply ts_get|]. intros s t Hst. cbv beta.
  assert (HD := ti_delta _ _ Hst).
  eapply (ts_bind TV _ (fun i => with_rng (o_step (o i) (i_delta (s i)) (m_X (c i)) (m_proxf (c i)) (m_gradg (c i))))).
  { apply (ts_rng TV (fun i => o_step (o i) (i_delta (s i)) (m_X (c i)) (m_proxf (c i)) (m_gradg (c i)))). intros g.
    apply (to_step HO (fun i => i_delta (s i)) _ (fun i => m_X (c i)) _ (fun i => m_proxf (c i)) _ (fun i => m_gradg (c i))); auto. }
  intros x' y' Hx'. cbv beta. eapply (ts_bind TD _ (fun i => lift (o_forward (o i) (x' i)))); [now apply ts_lift, (to_forward HO)|]. intros d' e' Hd'. cbv beta.
  eapply (ts_bind TV _ (fun i => lift (o_gradg (o i) (d' i)))); [now apply ts_lift, (to_gradg HO)|]. intros gr gr' Hgr. cbv beta.
  eapply (ts_bind TV _ (fun i => lift (o_proxf (o i) (x' i)))); [now apply ts_lift, (to_proxf HO)|]. intros p p' Hp. cbv beta.
  eapply (ts_bind TK _ (fun i => lift (o_logtrans (o i) (i_delta (s i)) (m_X (c i)) (x' i) (m_proxf (c i)) (m_gradg (c i))))).
  { apply ts_lift. apply (to_logtrans HO (fun i => i_delta (s i)) _ (fun i => m_X (c i)) _ x' _ (fun i => m_proxf (c i)) _ (fun i => m_gradg (c i))); auto. } intros q1 q1' Hq1. cbv beta.
  eapply (ts_bind TK _ (fun i => lift (o_logtrans (o i) (i_delta (s i)) (x' i) (m_X (c i)) (p i) (gr i)))).
  { apply ts_lift. apply (to_logtrans HO (fun i => i_delta (s i)) _ x' _ (fun i => m_X (c i)) _ p _ gr); auto. } intros q2 q2' Hq2. cbv beta.
  eapply (ts_bind ttri _ (fun i => lift (o_logpi (o i) (x' i) (d' i)))); [now apply ts_lift, (to_logpi HO)|].
  intros lp [[a' b'] k'] (Ha & Hb & Hk). cbn [fst snd] in *.
  apply (ts_ext _ _ (fun i => do logu <- with_rng (fun g => let (u, g') := o_logrand (o i) g in (Ok u, g'));
     ret (mkMala (x' i) (d' i) (gr i) (p i) (fst (fst (lp i))) (snd (fst (lp i))) (snd (lp i)), logu, o_ksub (o i) (o_ksub (o i) (o_kadd (o i) (q2 i) (fst (fst (lp i)))) (q1 i)) (m_logpi (c i))))).
  { apply near_true. intros i. destruct (lp i) as [[? ?] ?]. reflexivity. }
  eapply (ts_bind TU _ (fun i => with_rng (fun g => let (u, g') := o_logrand (o i) g in (Ok u, g')))).
  { apply (ts_rng TU (fun i g => let (u, g') := o_logrand (o i) g in (Ok u, g'))). intros g. destruct (to_logrand HO g) as (L1 & L2).
    destruct (o_logrand u g) as [u0 g0]. cbn [fst snd] in *. split.
    - exists (fun i => fst (o_logrand (o i) g)). split; [|exact L1]. apply near_true. intros i. destruct (o_logrand (o i) g). reflexivity.
    - apply near_mono with (2 := L2). intros i. destruct (o_logrand (o i) g). auto. }
  intros lu lu' Hlu. cbv beta.
  apply (ts_ret tpre (fun i => (mkMala (x' i) (d' i) (gr i) (p i) (fst (fst (lp i))) (snd (fst (lp i))) (snd (lp i)), lu i, o_ksub (o i) (o_ksub (o i) (o_kadd (o i) (q2 i) (fst (fst (lp i)))) (q1 i)) (m_logpi (c i))))).
  split; [constructor; assumption|]. split; [exact Hlu|]. cbn [snd].
  apply (to_ksub HO (fun i => o_ksub (o i) (o_kadd (o i) (q2 i) (fst (fst (lp i)))) (q1 i)) _ (fun i => m_logpi (c i))); [|assumption].
  apply (to_ksub HO (fun i => o_kadd (o i) (q2 i) (fst (fst (lp i)))) _ q1); [|assumption]. now apply (to_kadd HO q2 _ (fun i => fst (fst (lp i)))).
Qed.

Lemma ts_rest tune k j acc c e : (0 <= k)%Z -> tmala c e -> tsim tjm (fun i => rest (o i) tune k j acc (c i)) (rest u tune k j acc e).
Proof.
  intros H0 Hc. destruct Hc as [C1 C2 C3 C4 C5 C6 C7]. unfold rest.
  eapply (ts_bind same _ (fun i => if tune then do _ <- tune_delta (o i) k; append_delta else ret tt)).
  { apply (ts_if tune (fun i => do _ <- tune_delta (o i) k; append_delta) (fun _ => ret tt)); [|apply ts_nothing].
    eapply (ts_bind same _ (fun i => tune_delta (o i) k)); [now apply ts_tune|]. intros _ _ _. apply ts_append_delta. }
  intros _ _ _. cbv beta.
  eapply (ts_bind same _ (fun i => if (p_nburn prm <=? k)%Z then if grid_hit prm k && acc then do _ <- tracking (o i) j (m_X (c i)) (m_preds (c i)) (m_logpi (c i)) (m_L2 (c i)) (m_prior (c i)); ret (j + 1)%Z else ret j else ret j)).
  { destruct (p_nburn prm <=? k)%Z; [|apply (ts_ret same (fun _ => j)), same_const]. destruct (grid_hit prm k && acc)%bool; [|apply (ts_ret same (fun _ => j)), same_const].
    eapply (ts_bind same _ (fun i => tracking (o i) j (m_X (c i)) (m_preds (c i)) (m_logpi (c i)) (m_L2 (c i)) (m_prior (c i)))).
    - apply (ts_tracking j (fun i => m_X (c i)) _ (fun i => m_preds (c i)) _ (fun i => m_logpi (c i)) (fun i => m_L2 (c i)) (fun i => m_prior (c i))); assumption.
    - intros _ _ _. apply (ts_ret same (fun _ => (j + 1)%Z)), same_const. }
  intros j1 j2 Hj. cbv beta.
  apply (ts_ext _ _ (fun i => do _ <- (if progress_due prm k then do s' <- get_inst; print (EvProgress (j2 - 1 + 1) (m_logpi (c i)) (m_L2 (c i)) (m_prior (c i)) (i_acc s')) else ret tt); ret (j2, c i))).
  { apply near_mono with (2 := Hj). intros i ->. reflexivity. }
  eapply (ts_bind same _ (fun i => if progress_due prm k then do s' <- get_inst; print (EvProgress (j2 - 1 + 1) (m_logpi (c i)) (m_L2 (c i)) (m_prior (c i)) (i_acc s')) else ret tt)).
  { apply (ts_if (progress_due prm k) (fun i => do s' <- get_inst; print (EvProgress (j2 - 1 + 1) (m_logpi (c i)) (m_L2 (c i)) (m_prior (c i)) (i_acc s'))) (fun _ => ret tt)); [|apply ts_nothing].
    eapply (ts_bind tinst _ (fun _ => get_inst)); [apply ts_get|]. intros s t Hst. cbv beta.
    apply (ts_print (fun i => EvProgress (j2 - 1 + 1) (m_logpi (c i)) (m_L2 (c i)) (m_prior (c i)) (i_acc (s i)))).
    exists (fun i => m_logpi (c i)), (fun i => m_L2 (c i)), (fun i => m_prior (c i)). split; [|auto]. apply near_mono with (2 := ti_acc _ _ Hst). intros i ->. reflexivity. }
  intros _ _ _. cbv beta. apply (ts_ret tjm (fun i => (j2, c i))). split; [now apply near_true|]. constructor; assumption.
Qed.
Lemma ts_post tune k j c e c1 e1 acc : (0 <= k)%Z -> tmala c e -> tmala c1 e1 -> tsim tjm (fun i => post (o i) tune k j (c i) (c1 i) acc) (post u tune k j e e1 acc).
Proof.
  intros H0 H H1. unfold post. eapply (ts_bind same _ (fun _ => append_acc (if acc then 1 else 0)%Z)); [apply ts_append_acc|]. intros _ _ _. cbv beta.
  destruct acc; now apply ts_rest.
Qed.

(** no decision of the run is a tie *)
Definition clear_cut (a b : K) : Prop := o_kltb u a b = negb (o_kltb u b a).
Fixpoint calm (tune : bool) (fuel : nat) (k j : Z) (c : mala_state V D K) (v : world V D K P G) : Prop :=
  match fuel with
  | O => True
  | S f => (j <? p_nsamples prm)%Z = true ->
      (forall v' c1 lu la, pre u c v = (v', Ret (c1, lu, la)) -> clear_cut lu la) /\
      (forall v' j' c', pxmala_body u prm tune k j c v = (v', Ret (j', c')) -> calm tune f (k + 1) j' c' v')
  end.
Lemma ts_pxmala_loop tune fuel : forall k j c e w v, (0 <= k)%Z -> tmala c e -> tworld w v -> calm tune fuel k j e v ->
  tat same (fun i => pxmala_loop (o i) prm tune fuel k j (c i) (w i)) (pxmala_loop u prm tune fuel k j e v).
Proof.
  induction fuel as [|fuel IH]; intros k j c e w v H0 Hc HW CA; cbn [pxmala_loop]; destruct (j <? p_nsamples prm)%Z eqn:EJ;
    try (now apply ts_done); [now apply ts_nofuel|].
  cbn [calm] in CA. destruct (CA EJ) as (CC & CN).
  apply (tat_bind tjm).
  - rewrite body_split. apply (tat_ext _ _ (fun i => bind (pre (o i) (c i)) (fun r => post (o i) tune k j (c i) (fst (fst r)) (o_kltb (o i) (snd (fst r)) (snd r))) (w i))); [apply near_true; intros i; apply body_split|].
    assert (HP := ts_pre c e Hc w v HW). apply (tat_bind tpre); [exact HP|]. intros r ((e1 & lu) & la) E (T1 & T2 & T3). cbn [fst snd] in *.
    destruct (pre u e v) as [v' out] eqn:EP. cbn [fst snd] in *. subst out. specialize (CC v' e1 lu la eq_refl).
    apply (tat_ext _ _ (fun i => post (o i) tune k j (c i) (fst (fst (r i))) (o_kltb u lu la) (fst (pre (o i) (c i) (w i))))).
    { apply near_mono with (2 := to_kltb HO _ _ _ _ T2 T3 CC). intros i ->. reflexivity. }
    apply (ts_post tune k j c e (fun i => fst (fst (r i))) e1 _ H0 Hc T1 (fun i => fst (pre (o i) (c i) (w i)))). exact (proj1 HP).
  - intros r (j2 & c2) E (T1 & T2). cbn [fst snd] in *.
    destruct (pxmala_body u prm tune k j e v) as [v' out] eqn:EB. cbn [fst snd] in *. subst out.
    assert (HB : tworld (fun i => fst (pxmala_body (o i) prm tune k j (c i) (w i))) v').
    { assert (Q : tat tjm (fun i => pxmala_body (o i) prm tune k j (c i) (w i)) (v', Ret (j2, c2))); [|exact (proj1 Q)]. rewrite <- EB, body_split.
      apply (tat_ext _ _ (fun i => bind (pre (o i) (c i)) (fun r => post (o i) tune k j (c i) (fst (fst r)) (o_kltb (o i) (snd (fst r)) (snd r))) (w i))); [apply near_true; intros i; apply body_split|].
      assert (HP := ts_pre c e Hc w v HW). apply (tat_bind tpre); [exact HP|]. intros r1 ((e1 & lu) & la) E (T3 & T4 & T5). cbn [fst snd] in *.
      destruct (pre u e v) as [v1 out] eqn:EP. cbn [fst snd] in *. subst out. specialize (CC v1 e1 lu la eq_refl).
      apply (tat_ext _ _ (fun i => post (o i) tune k j (c i) (fst (fst (r1 i))) (o_kltb u lu la) (fst (pre (o i) (c i) (w i))))).
      { apply near_mono with (2 := to_kltb HO _ _ _ _ T4 T5 CC). intros i ->. reflexivity. }
      apply (ts_post tune k j c e (fun i => fst (fst (r1 i))) e1 _ H0 Hc T3 (fun i => fst (pre (o i) (c i) (w i)))). exact (proj1 HP). }
    apply (tat_ext _ _ (fun i => pxmala_loop (o i) prm tune fuel (k + 1) j2 (snd (r i)) (fst (pxmala_body (o i) prm tune k j (c i) (w i))))).
    { apply near_mono with (2 := T1). intros i. destruct (r i). cbn. intros ->. reflexivity. }
    apply (IH (k + 1)%Z j2 (fun i => snd (r i)) c2 _ v'); [lia|exact T2|exact HB|now apply CN].
Qed.

(** the part of run before the loop *)
Definition start_up (o : ops V D K P G IS) (start : IS) : M (mala_state V D K) :=
  do s <- get_inst;
  do _ <- put_inst (set_acc (Some []) s);
  do s <- get_inst;
  do _ <- put_inst (set_deltas (Some [i_delta s]) s);
  do r <- initial_sample o start;
  do gradg <- lift (o_gradg o (snd r));
  do proxf <- lift (o_proxf o (fst r));
  do t <- lift (o_logpi o (fst r) (snd r));
  ret (mkMala (fst r) (snd r) gradg proxf (fst (fst t)) (snd (fst t)) (snd t)).
Lemma run_split o0 tune fuel start w : pxmala_run o0 prm tune fuel start w = bind (start_up o0 start) (pxmala_loop o0 prm tune fuel 0 0) w.
Proof.
  unfold pxmala_run, start_up, bind at 1 2 3 4 5 6 7 9. unfold bind, get_inst, put_inst, ret. cbn [fst snd w_inst w_rng].
  destruct (initial_sample o0 start _) as [w1 [(X & d)|e|]]; try reflexivity. cbn [fst snd].
  destruct (lift (o_gradg o0 d) w1) as [w2 [g|e|]]; try reflexivity.
  destruct (lift (o_proxf o0 X) w2) as [w3 [p|e|]]; try reflexivity.
  destruct (lift (o_logpi o0 X d) w3) as [w4 [((a & b) & c)|e|]]; reflexivity.
Qed.
Lemma ts_start_up a b : TI a b -> tsim tmala (fun i => start_up (o i) (a i)) (start_up u b).
Proof.
  intros H. unfold start_up. eapply (ts_bind tinst _ (fun _ => get_inst)); [apply ts_get|]. intros s t Hst. cbv beta.
  eapply (ts_bind same _ (fun i => put_inst (set_acc (Some []) (s i)))). { apply (ts_put (fun i => set_acc (Some []) (s i))). ifields Hst. apply same_const. } intros _ _ _. cbv beta.
  eapply (ts_bind tinst _ (fun _ => get_inst)); [apply ts_get|]. intros s1 t1 Hst1. cbv beta.
  eapply (ts_bind same _ (fun i => put_inst (set_deltas (Some [i_delta (s1 i)]) (s1 i)))).
  { apply (ts_put (fun i => set_deltas (Some [i_delta (s1 i)]) (s1 i))). ifields Hst1. apply tarr_some, (tlist_one TP (fun i => i_delta (s1 i))). exact H8. } intros _ _ _. cbv beta.
  eapply (ts_bind tvd); [exact (ts_initial a b H)|]. intros r [y e] (Hx & Hd). cbn [fst snd] in *. cbv beta.
  eapply (ts_bind TV _ (fun i => lift (o_gradg (o i) (snd (r i))))); [apply ts_lift; now apply (to_gradg HO (fun i => snd (r i)))|]. intros gr gr' Hgr. cbv beta.
  eapply (ts_bind TV _ (fun i => lift (o_proxf (o i) (fst (r i))))); [apply ts_lift; now apply (to_proxf HO (fun i => fst (r i)))|]. intros p p' Hp. cbv beta.
  eapply (ts_bind ttri _ (fun i => lift (o_logpi (o i) (fst (r i)) (snd (r i))))); [apply ts_lift; now apply (to_logpi HO (fun i => fst (r i)) _ (fun i => snd (r i)))|].
  intros lp lp' (Ha & Hb & Hk). cbv beta.
  apply (ts_ret tmala (fun i => mkMala (fst (r i)) (snd (r i)) (gr i) (p i) (fst (fst (lp i))) (snd (fst (lp i))) (snd (lp i)))). constructor; assumption.
Qed.
Lemma ts_pxmala tune fuel a b w v : TI a b -> tworld w v ->
  (forall v' e, start_up u b v = (v', Ret e) -> calm tune fuel 0 0 e v') ->
  tat same (fun i => pxmala_run (o i) prm tune fuel (a i) (w i)) (pxmala_run u prm tune fuel b v).
Proof.
  intros H HW CA. rewrite run_split. apply (tat_ext _ _ (fun i => bind (start_up (o i) (a i)) (pxmala_loop (o i) prm tune fuel 0 0) (w i))); [apply near_true; intros i; apply run_split|].
  assert (HS := ts_start_up a b H w v HW). apply (tat_bind tmala); [exact HS|]. intros c e E T. destruct (start_up u b v) as [v' out] eqn:ES. cbn [fst snd] in *. subst out.
  apply (ts_pxmala_loop tune fuel 0 0 c e); [lia|exact T|exact (proj1 HS)|now apply CA].
Qed.
End Run.
