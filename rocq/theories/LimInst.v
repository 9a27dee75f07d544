(** The float operations of the samplers as a family with a limit (C66). *)
From Coq Require Import List ZArith Lia Bool Reals Lra Psatz.
From Coquelicot Require Import Coquelicot.
From Verif Require Import PyBase PyBaseFacts Sampler Ieee IeeeProof RoundProof FloatOps FloatSk LimProof LimOps LimRun.
Import ListNotations.
Notation length := List.length.
Open Scope R_scope.

Section Inst.
Variable I : Type.
Variable near : (I -> Prop) -> Prop.
Variable rnd : I -> R -> float.
Hypothesis LI : limit I near rnd.
Hypothesis NE : forall P, near P -> exists i, P i.
Notation tends := (tends I near).
Notation tendv := (tendv I near).
Notation tendr := (tendr I near).

Definition TK (v : I -> float) (x : float) : Prop := tends v (fun _ => x).
Definition TV (n : nat) (v : I -> fvec) (x : fvec) : Prop := tendv n v (fun _ => x).
(** a positive step size *)
Definition TP (v : I -> float) (x : float) : Prop := exists d, x = Fin d /\ 0 < d /\ TK v x.
Definition TI (v : I -> option fvec) (x : option fvec) : Prop :=
  match x with None => near (fun i => v i = None) | Some y => exists a k, near (fun i => v i = Some (a i)) /\ TV k a y end.

Lemma TK_closed : closed I near TK.
Proof.
  intros a a' b E H. apply (tends_ext _ _ _ LI _ _ a' (fun _ => b)); [|exact H]. apply (li_mono _ _ _ LI _ _) with (2 := E). auto.
Qed.
Lemma TP_closed : closed I near TP.
Proof. intros a a' b E (d & Eb & Hd & H). exists d. split; [auto|]. split; [auto|]. now apply (TK_closed a a'). Qed.
Lemma TK_fin v x : TK v x -> exists r, x = Fin r.
Proof. intros ((B & H) & _). destruct (NE _ H) as (_ & r & E & _). exists r. exact E. Qed.
Lemma TV_len n v x : TV n v x -> length x = n /\ near (fun i => length (v i) = n).
Proof.
  intros (H & _). split; [destruct (NE _ H) as (i & _ & E); exact E|]. apply (li_mono _ _ _ LI _ _) with (2 := H). tauto.
Qed.

(** a computation with a constant reference *)
Lemma fixed {A} (T : (I -> A) -> (I -> A) -> Prop) (V : I -> res A) (r : res A) :
  (forall a b b', near (fun i => b i = b' i) -> T a b -> T a b') ->
  tendr T V (fun _ => r) -> tres I near (fun a b => T a (fun _ => b)) V r.
Proof.
  intros CT (V' & W' & N & H). destruct (NE _ N) as (i0 & _ & E0). rewrite E0. cbn. exists V'. split; [apply (li_mono _ _ _ LI _ _) with (2 := N); tauto|].
  apply (CT _ W'); [|exact H]. apply (li_mono _ _ _ LI _ _) with (2 := N). intros i (_ & E). congruence.
Qed.
Lemma tends_r : forall a b b', near (fun i => b i = b' i) -> tends a b -> tends a b'.
Proof. intros a b b' E H. apply (tends_ext _ _ _ LI _ _ a b); [|exact H]. apply (li_mono _ _ _ LI _ _) with (2 := E). auto. Qed.
Lemma tendv_r n : forall a b b', near (fun i => b i = b' i) -> tendv n a b -> tendv n a b'.
Proof. intros a b b' E H. apply (tendv_ext _ _ _ LI n _ _ a b); [|exact H]. apply (li_mono _ _ _ LI _ _) with (2 := E). auto. Qed.
Lemma fixed_v n V r : tendr (tendv n) V (fun _ => r) -> tres I near (TV n) V r.
Proof. apply fixed, tendv_r. Qed.
Lemma fixed_k V r : tendr tends V (fun _ => r) -> tres I near TK V r.
Proof. apply fixed, tends_r. Qed.

Variables (n m : nat) (f : I -> fl_problem) (f' : fl_problem) (l mu : R).
Hypothesis HT : tendp I near rnd n m f f'.
Hypothesis Hl : 0 < l.
Context {G : Type}.
Variable randn laplace : nat -> G -> list R * G.
Variable rand : G -> R * G.
Hypothesis LR : forall k g, length (fst (randn k g)) = k.
Hypothesis LL : forall k g, length (fst (laplace k g)) = k.
Hypothesis HU : forall g, 0 < fst (rand g).
Variable s : Z.
Notation op i := (fl_sk_ops (rnd i) s randn laplace rand (f i) (Fin l) (Fin mu)).
Notation ref := (fl_sk_ops Fin s randn laplace rand f' (Fin l) (Fin mu)).

Lemma TV_const k v : length v = k -> TV k (fun _ => map Fin v) (map Fin v).
Proof.
  intros Hv. split; [apply (li_true _ _ _ LI); intros; rewrite map_length; auto|]. intros j Hj.
  destruct (nth_error v j) as [r|] eqn:E; [|apply nth_error_None in E; lia].
  apply (tends_ext _ _ _ LI _ _ (fun _ => Fin r) (fun _ => Fin r)); [|apply (tends_num _ _ _ LI)].
  apply (li_true _ _ _ LI). intros i. rewrite (nth_error_nth (map Fin v) j NaN (x := Fin r)); [auto|]. rewrite nth_error_map, E. reflexivity.
Qed.
Lemma TV_row k v x : TV k v x -> tres I near (TV k) (fun i => f_row k (v i)) (f_row k x).
Proof.
  intros H. destruct (TV_len _ _ _ H) as (E & N). unfold f_row at 2. rewrite E, Nat.eqb_refl. exists v. split; [|exact H].
  apply (li_mono _ _ _ LI _ _) with (2 := N). intros i Ei. unfold f_row. now rewrite Ei, Nat.eqb_refl.
Qed.
Lemma ref_params : fp_nparams f' = n.
Proof. exact (tp_n' _ _ _ _ _ _ _ HT). Qed.
Lemma op_params : near (fun i => fp_nparams (f i) = n).
Proof. apply (li_true _ _ _ LI). exact (tp_n _ _ _ _ _ _ _ HT). Qed.

Lemma tuned_pos d a k : exists d', f_tuned Fin (Fin l) (Fin d) a k = Fin d' /\ 0 < d'.
Proof.
  unfold f_tuned, flit. assert (PP : 0 < Rpower (IZR (k + 1)) (75 / 100)) by apply exp_pos. set (p := Rpower (IZR (k + 1)) (75 / 100)) in *.
  cbn [fadd fsub fneg fmul fdiv]. destruct (Req_EM_T p 0) as [E|_]; [lra|]. destruct (Req_EM_T 2 0) as [E|_]; [lra|]. cbn [fadd fmul].
  unfold fmin, fmax. cbn [fltb]. destruct (Rlt_dec _ (l * (1 / 100000000))); cbn [fltb]; destruct (Rlt_dec (l / 2) _); eexists; (split; [reflexivity|]); lra.
Qed.

Lemma limit_ops : tops I near (TV n) (TV m) TK TP TK (fun i => op i) ref TI.
Proof.
  assert (NM := li_mono _ _ _ LI). assert (NT := li_true _ _ _ LI). assert (NZ : l <> 0) by lra.
  assert (RP := ref_params). assert (NP := op_params).
  constructor; cbn [fl_sk_ops fl_ops o_init o_forward o_gradg o_proxf o_logpi o_step o_skstep o_logtrans o_logrand o_kadd o_ksub o_kltb o_tune o_rowV o_rowD o_rowK].
  - intros a [y|] g H; cbn in H.
    + destruct H as (b & k & N & H). destruct (TV_len _ _ _ H) as (E & N2). unfold tdrawn, f_start at 2 4. rewrite E, RP.
      assert (Q : near (fun i => f_start laplace (f i) (a i) g = if Nat.eqb k n then (Ok (b i), g) else (Raise ValueError, g))).
      { apply (both _ _ _ LI _ _ _ (li_and _ _ _ LI _ _ N N2) NP). intros i (-> & E2) E3. unfold f_start. rewrite E2, E3. reflexivity. }
      destruct (Nat.eqb k n) eqn:Ek; cbn; (split; [|apply (NM _ _) with (2 := Q); intros i ->; reflexivity]).
      * apply Nat.eqb_eq in Ek. rewrite Ek in H. exists b. split; [apply (NM _ _) with (2 := Q); intros i ->; reflexivity|exact H].
      * apply (NM _ _) with (2 := Q). intros i ->. reflexivity.
    + unfold tdrawn, f_start at 2 4. rewrite RP. assert (Q : near (fun i => f_start laplace (f i) (a i) g = (Ok (map Fin (fst (laplace n g))), snd (laplace n g)))).
      { apply (both _ _ _ LI _ _ _ H NP). intros i -> E. unfold f_start. rewrite E. destruct (laplace n g); reflexivity. }
      destruct (laplace n g) as [v g'] eqn:E. cbn in Q |- *. split; [|apply (NM _ _) with (2 := Q); intros i ->; reflexivity].
      exists (fun _ => map Fin v). split; [apply (NM _ _) with (2 := Q); intros i ->; reflexivity|]. apply TV_const. assert (L := LL n g). rewrite E in L. exact L.
  - intros x y H. apply fixed_v. exact (tp_forward _ _ _ _ _ _ _ HT _ _ H).
  - intros x y H. apply fixed_v. exact (tp_gradg _ _ _ _ _ _ _ HT _ _ H).
  - intros x y H. apply fixed_v. exact (tp_proxf _ _ _ _ _ _ _ HT _ _ H).
  - intros x y d e Hx Hd. assert (Q := t_logpi _ _ _ LI n m f f' mu HT x (fun _ => y) d (fun _ => e) Hx Hd).
    refine (fixed (tend3 I near) _ (f_logpi Fin f' (Fin mu) y e) _ Q). intros a b b' E (Ha & Hb & Hc). unfold tend3.
    split; [|split]; [apply (tends_r _ (fun i => fst (fst (b i))))|apply (tends_r _ (fun i => snd (fst (b i))))|apply (tends_r _ (fun i => snd (b i)))]; auto; apply (NM _ _) with (2 := E); intros; congruence.
  - intros p p' x x' y y' z z' g (d & -> & Hd & Hp) Hx Hy Hz. unfold tdrawn, f_step at 2 4. rewrite RP.
    assert (LD : near (fun i : I => forall r, Fin d = Fin r -> d <= r)) by (apply NT; intros _ r E; injection E as ->; lra).
    assert (L := LR n g).
    assert (Q : near (fun i => f_step (rnd i) randn (f i) (Fin l) (p i) (x i) (y i) (z i) g =
      (let* r := py_fdiv (rnd i) (p i) (Fin l) in
       let* a := fzip (fadd (rnd i)) (fscal (rnd i) (fsub (rnd i) (Fin 1) r) (x i)) (fscal (rnd i) r (y i)) in
       let* b := fzip (fsub (rnd i)) a (fscal (rnd i) (p i) (z i)) in
       fzip (fadd (rnd i)) b (fscal (rnd i) (fsqrt (rnd i) (fmul (rnd i) (Fin 2) (p i))) (map Fin (fst (randn n g)))), snd (randn n g)))).
    { apply (NM _ _) with (2 := NP). intros i E. unfold f_step. rewrite E. destruct (randn n g); reflexivity. }
    destruct (randn n g) as [v g']. cbn [fst snd] in *. split; [|apply (NM _ _) with (2 := Q); intros i ->; reflexivity]. cbn [fst snd].
    apply fixed_v. assert (T := t_step _ _ _ LI n l NZ p (fun _ => Fin d) d Hp Hd LD x (fun _ => x') y (fun _ => y') z (fun _ => z') (fun _ => map Fin v) (fun _ => map Fin v) Hx Hy Hz (TV_const n v L)).
    cbv beta zeta in T. eapply (tendr_ext _ _ _ LI _ _ _ _ _); [|exact T]. apply (NM _ _) with (2 := Q). intros i ->. cbn [fst]. split; reflexivity.
  - intros p p' x x' y y' z z' t t' (d & -> & Hd & Hp) Hx Hy Hz Ht. apply fixed_k.
    exact (t_logtrans _ _ _ LI n l NZ p (fun _ => Fin d) Hp x (fun _ => x') y (fun _ => y') z (fun _ => z') t (fun _ => t') Hx Hy Hz Ht).
  - intros g. unfold f_logrand. assert (U := HU g). destruct (rand g) as [u g']. cbn [fst snd] in *. split; [|now apply NT]. now apply (t_lograndom _ _ _ LI).
  - intros a a' b b' Ha Hb. exact (t_add _ _ _ LI a b (fun _ => a') (fun _ => b') Ha Hb).
  - intros a a' b b' Ha Hb. exact (t_sub _ _ _ LI a b (fun _ => a') (fun _ => b') Ha Hb).
  - intros a a' b b' Ha Hb E. destruct (TK_fin _ _ Ha) as (u & ->). destruct (TK_fin _ _ Hb) as (v & ->).
    apply (t_ltb _ _ _ LI a b u v Ha Hb). intros ->. cbn in E. destruct (Rlt_dec v v); [lra|discriminate].
  - intros p p' a k (d & -> & Hd & Hp) Hk. destruct (tuned_pos d a k) as (d' & E & Hd'). exists d'. split; [exact E|]. split; [exact Hd'|].
    exact (t_tuned _ _ _ LI l p (fun _ => Fin d) Hp a k Hk).
  - intros x y H. rewrite RP.
    assert (Q := TV_row n x y H). unfold tres in *. destruct (f_row n y) as [b|e].
    + destruct Q as (a & N & Ta). exists a. split; [|exact Ta]. apply (both _ _ _ LI _ _ _ N NP). intros i Ei ->. exact Ei.
    + apply (both _ _ _ LI _ _ _ Q NP). intros i Ei ->. exact Ei.
  - intros x y H. assert (D := tp_data _ _ _ _ _ _ _ HT). destruct (TV_len _ _ _ D) as (E & N). rewrite E.
    assert (Q := TV_row m x y H). unfold tres in *. destruct (f_row m y) as [b|e].
    + destruct Q as (a & N' & Ta). exists a. split; [|exact Ta]. apply (both _ _ _ LI _ _ _ N' N). intros i Ei ->. exact Ei.
    + apply (both _ _ _ LI _ _ _ Q N). intros i Ei ->. exact Ei.
  - intros a b H. exact H.
Qed.

Lemma limit_skstep : (forall k, (1 <= k <= Z.to_nat s)%nat -> exists c, f_coef Fin s k = Ok c) ->
  tskstep I near (TV n) TP (fun i => op i) ref.
Proof.
  intros HC p p' x x' g (d & -> & Hd & Hp) Hx. assert (NM := li_mono _ _ _ LI). assert (NZ : l <> 0) by lra.
  cbn [fl_sk_ops o_skstep]. destruct (TV_len _ _ _ Hx) as (E & N). unfold tdrawn, f_skstep at 2 4. rewrite E. assert (L := LR n g).
  assert (Q : near (fun i => f_skstep (rnd i) s randn (f i) (Fin l) (p i) (x i) g = (f_K (rnd i) s (f i) (Fin l) (p i) (x i) (Z.to_nat s) (map Fin (fst (randn n g))), snd (randn n g)))).
  { apply (NM _ _) with (2 := N). intros i Ei. unfold f_skstep. rewrite Ei. destruct (randn n g); reflexivity. }
  destruct (randn n g) as [v g']. cbn [fst snd] in *. split; [|apply (NM _ _) with (2 := Q); intros i ->; reflexivity]. cbn [fst snd].
  apply fixed_v. assert (T := t_K _ _ _ LI n m f f' l HT NZ s d Hd p Hp x (fun _ => x') (fun _ => map Fin v) (fun _ => map Fin v) Hx (TV_const n v L) (Z.to_nat s) HC).
  eapply (tendr_ext _ _ _ LI _ _ _ _ _); [|exact T]. apply (NM _ _) with (2 := Q). intros i ->. cbn [fst]. split; reflexivity.
Qed.
End Inst.
