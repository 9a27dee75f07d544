(** Lemmas about the floats of Ieee.v. *)
From Coq Require Import List ZArith Lia Bool Reals Lra String.
From Verif Require Import PyBase PyBaseFacts Sampler SamplerSpec SamplerFacts Ieee.
Import ListNotations.
Open Scope R_scope.

Section A.
Variable rnd : R -> float.

Lemma fadd_nan_l a : fadd rnd NaN a = NaN. Proof. destruct a; reflexivity. Qed.
Lemma fadd_nan_r a : fadd rnd a NaN = NaN. Proof. destruct a; reflexivity. Qed.
Lemma fsub_nan_l a : fsub rnd NaN a = NaN. Proof. apply fadd_nan_l. Qed.
Lemma fsub_nan_r a : fsub rnd a NaN = NaN. Proof. unfold fsub. apply fadd_nan_r. Qed.
Lemma fmul_nan_l a : fmul rnd NaN a = NaN. Proof. destruct a; reflexivity. Qed.
Lemma fmul_nan_r a : fmul rnd a NaN = NaN. Proof. destruct a; reflexivity. Qed.
Lemma fltb_nan_l a : fltb NaN a = false. Proof. destruct a; reflexivity. Qed.
Lemma fltb_nan_r a : fltb a NaN = false. Proof. destruct a; reflexivity. Qed.
Lemma fltb_ninf_r a : fltb a NInf = false. Proof. destruct a; reflexivity. Qed.

(** minus infinity or NaN *)
Definition low (a : float) : Prop := a = NaN \/ a = NInf.
Lemma low_add_l a b : low a -> low (fadd rnd a b).
Proof. intros [->| ->]; destruct b; cbn; unfold low; auto. Qed.
Lemma low_add_r a b : low b -> low (fadd rnd a b).
Proof. intros [->| ->]; destruct a; cbn; unfold low; auto. Qed.
Lemma low_sub_l a b : low a -> low (fsub rnd a b).
Proof. unfold fsub. apply low_add_l. Qed.
Lemma low_reject u a : low a -> fltb u a = false.
Proof. intros [->| ->]; [apply fltb_nan_r|apply fltb_ninf_r]. Qed.

Lemma accept_numbers u q' lp q lc :
  fltb u (fsub rnd (fsub rnd (fadd rnd q' lp) q) lc) = true ->
  ~ low lp /\ ~ low q' /\ q <> NaN /\ lc <> NaN /\ u <> NaN.
Proof.
  intros H.
  assert (K : ~ low (fsub rnd (fsub rnd (fadd rnd q' lp) q) lc)) by (intros L; rewrite (low_reject u _ L) in H; discriminate).
  split; [|split; [|split; [|split]]].
  - intros L. apply K. now apply low_sub_l, low_sub_l, low_add_r.
  - intros L. apply K. now apply low_sub_l, low_sub_l, low_add_l.
  - intros ->. apply K. rewrite fsub_nan_r, fsub_nan_l. now left.
  - intros ->. apply K. rewrite fsub_nan_r. now left.
  - intros ->. destruct (fsub rnd (fsub rnd (fadd rnd q' lp) q) lc); discriminate H.
Qed.

Lemma fold_nan l : fold_left (fadd rnd) l NaN = NaN.
Proof. induction l as [|a l IH]; [reflexivity|]. cbn [fold_left]. now rewrite fadd_nan_l. Qed.
Lemma fsum_nan l : In NaN l -> fsum rnd l = NaN.
Proof.
  unfold fsum. generalize (Fin 0). induction l as [|a l IH]; intros z H; [destruct H|]. cbn [fold_left].
  destruct H as [->|H]; [rewrite fadd_nan_r; apply fold_nan|now apply IH].
Qed.

Lemma fzip_nth op a b c i x y : fzip op a b = Ok c -> nth_error a i = Some x -> nth_error b i = Some y ->
  nth_error c i = Some (op x y).
Proof.
  unfold fzip. destruct (Nat.eqb (List.length a) (List.length b)); [|discriminate]. intros E Ha Hb. injection E as <-.
  revert b i Ha Hb. induction a as [|a0 a IH]; intros b i Ha Hb; [destruct i; discriminate|].
  destruct b as [|b0 b]; [destruct i; discriminate|]. destruct i as [|i]; cbn in *.
  - congruence.
  - now apply IH.
Qed.
Lemma fzip_length op a b c : fzip op a b = Ok c -> List.length c = List.length a /\ List.length b = List.length a.
Proof.
  unfold fzip. destruct (Nat.eqb (List.length a) (List.length b)) eqn:E; [|discriminate]. apply Nat.eqb_eq in E.
  intros H. injection H as <-. rewrite map_length, combine_length. lia.
Qed.
Lemma fzip_ok op a b : List.length a = List.length b -> exists c, fzip op a b = Ok c /\ List.length c = List.length a.
Proof.
  intros H. unfold fzip. rewrite H, Nat.eqb_refl. eexists. split; [reflexivity|]. rewrite map_length, combine_length. lia.
Qed.
Lemma fzip_same_len op a b c i x : fzip op a b = Ok c -> nth_error a i = Some x ->
  exists y, nth_error b i = Some y /\ nth_error c i = Some (op x y).
Proof.
  intros E Ha. destruct (fzip_length _ _ _ _ E) as (_ & L).
  assert (i < List.length b)%nat by (rewrite L; apply nth_error_Some; congruence).
  destruct (nth_error b i) as [y|] eqn:Eb; [|apply nth_error_None in Eb; lia].
  exists y. split; [reflexivity|]. eapply fzip_nth; eauto.
Qed.
Lemma fzip_same_len_r op a b c i y : fzip op a b = Ok c -> nth_error b i = Some y ->
  exists x, nth_error a i = Some x /\ nth_error c i = Some (op x y).
Proof.
  intros E Hb. destruct (fzip_length _ _ _ _ E) as (_ & L).
  assert (i < List.length a)%nat by (rewrite <- L; apply nth_error_Some; congruence).
  destruct (nth_error a i) as [x|] eqn:Ea; [|apply nth_error_None in Ea; lia].
  exists x. split; [reflexivity|]. eapply fzip_nth; eauto.
Qed.
Lemma fscal_nan c a i : nth_error a i = Some NaN -> nth_error (fscal rnd c a) i = Some NaN.
Proof. intros H. unfold fscal. rewrite nth_error_map, H. cbn. now rewrite fmul_nan_r. Qed.
Lemma fscal_some c a i x : nth_error a i = Some x -> exists y, nth_error (fscal rnd c a) i = Some y.
Proof. intros H. unfold fscal. rewrite nth_error_map, H. eexists. reflexivity. Qed.
End A.

Section N.
Variable rnd : R -> float.
Context {G : Type}.
Variable randn laplace : nat -> G -> list R * G.
Variable rand : G -> R * G.
Variable f : fl_problem.
Variable lmda mu : float.

(** [x] has a NaN in entry [i] *)
Definition nan_at (i : nat) (x : fvec) : Prop := nth_error x i = Some NaN.

Lemma step_nan delta X p gr g X' g' i :
  f_step rnd randn f lmda delta X p gr g = (Ok X', g') ->
  nan_at i X \/ nan_at i p \/ nan_at i gr -> nan_at i X'.
Proof.
  unfold f_step. destruct (randn (fp_nparams f) g) as [w g1]. intros E0 H.
  assert (E := f_equal fst E0). cbn [fst] in E. clear E0.
  destruct (py_fdiv rnd delta lmda) as [r|]; [|discriminate]. cbn [rbind] in E.
  destruct (fzip (fadd rnd) (fscal rnd (fsub rnd (Fin 1) r) X) (fscal rnd r p)) as [a|] eqn:Ea; [|discriminate]. cbn [rbind] in E.
  destruct (fzip (fsub rnd) a (fscal rnd delta gr)) as [b|] eqn:Eb; [|discriminate]. cbn [rbind] in E.
  assert (B : nan_at i b).
  { destruct H as [H|[H|H]].
    - apply (fscal_nan rnd (fsub rnd (Fin 1) r)) in H. destruct (fzip_same_len _ _ _ _ _ _ Ea H) as (y & _ & A).
      rewrite fadd_nan_l in A. destruct (fzip_same_len _ _ _ _ _ _ Eb A) as (z & _ & Bb). now rewrite fsub_nan_l in Bb.
    - apply (fscal_nan rnd r) in H. destruct (fzip_same_len_r _ _ _ _ _ _ Ea H) as (y & _ & A).
      rewrite fadd_nan_r in A. destruct (fzip_same_len _ _ _ _ _ _ Eb A) as (z & _ & Bb). now rewrite fsub_nan_l in Bb.
    - apply (fscal_nan rnd delta) in H. destruct (fzip_same_len_r _ _ _ _ _ _ Eb H) as (y & _ & A).
      now rewrite fsub_nan_r in A. }
  destruct (fzip_same_len _ _ _ _ _ _ E B) as (z & _ & Z). now rewrite fadd_nan_l in Z.
Qed.

Lemma logpi_nan X preds t i :
  f_logpi rnd f mu X preds = Ok t -> nan_at i preds \/ nan_at i (fp_data f) ->
  snd (fst t) = NaN /\ fst (fst t) = NaN.
Proof.
  unfold f_logpi. intros E H.
  destruct (fzip (fsub rnd) (fp_data f) preds) as [d|] eqn:Ed; [|discriminate]. cbn [rbind] in E.
  destruct (f_matvec rnd (fp_invcov f) d) as [wd|]; [|discriminate]. cbn [rbind] in E.
  destruct (Nat.eqb (List.length d) (List.length wd)) eqn:El; [|discriminate]. cbn [rbind] in E. apply Nat.eqb_eq in El.
  destruct (fp_prior f X) as [p|]; [|discriminate]. cbn [rbind] in E. injection E as <-. cbn [fst snd].
  assert (D : nan_at i d).
  { destruct H as [H|H].
    - destruct (fzip_same_len_r _ _ _ _ _ _ Ed H) as (x & _ & A). now rewrite fsub_nan_r in A.
    - destruct (fzip_same_len _ _ _ _ _ _ Ed H) as (x & _ & A). now rewrite fsub_nan_l in A. }
  assert (L : fdot rnd d wd = NaN).
  { unfold fdot. apply fsum_nan. unfold nan_at in D.
    assert (i < List.length wd)%nat by (rewrite <- El; apply nth_error_Some; congruence).
    destruct (nth_error wd i) as [y|] eqn:Ey; [|apply nth_error_None in Ey; lia].
    apply (in_map_iff (fun p => fmul rnd (fst p) (snd p))). exists (NaN, y). split; [apply fmul_nan_l|].
    clear -D Ey. revert wd i D Ey. induction d as [|a d IH]; intros wd i D Ey; [destruct i; discriminate|].
    destruct wd as [|b wd]; [destruct i; discriminate|]. destruct i as [|i]; cbn in *.
    - left. congruence.
    - right. eapply IH; eauto. }
  rewrite L. split; [reflexivity|]. apply fsub_nan_r.
Qed.

(** the transition density sees every entry of the two samples *)
Lemma logtrans_parts delta X1 X2 p gr q : f_logtrans rnd lmda delta X1 X2 p gr = Ok q ->
  exists e h r, fzip (fsub rnd) X2 X1 = Ok e /\ fzip (fsub rnd) e h = Ok r /\
    q = fmul rnd (fneg (fmul rnd (Fin (1 / 2)) delta))
          (fmul rnd (fsum rnd (map (fun x => fmul rnd x x) r)) (fsum rnd (map (fun x => fmul rnd x x) r))).
Proof.
  unfold f_logtrans. intros E.
  destruct (fzip (fsub rnd) X1 p) as [d|]; [|discriminate]. cbn [rbind] in E.
  destruct (fzip (fsub rnd) _ gr) as [gl|]; [|discriminate]. cbn [rbind] in E.
  destruct (fzip (fsub rnd) X2 X1) as [e|] eqn:Ee; [|discriminate]. cbn [rbind] in E.
  destruct (fzip (fsub rnd) e _) as [r|] eqn:Er; [|discriminate]. cbn [rbind] in E. injection E as <-.
  exists e, (fscal rnd (fdiv rnd delta (Fin 2)) gl), r. auto.
Qed.

Lemma logtrans_nan delta X1 X2 p gr q i : f_logtrans rnd lmda delta X1 X2 p gr = Ok q ->
  nan_at i X1 \/ nan_at i X2 -> q = NaN.
Proof.
  intros E H. destruct (logtrans_parts _ _ _ _ _ _ E) as (e & h & r & Ee & Er & ->).
  assert (N : nan_at i e).
  { destruct H as [H|H].
    - destruct (fzip_same_len_r _ _ _ _ _ _ Ee H) as (x & _ & A). now rewrite fsub_nan_r in A.
    - destruct (fzip_same_len _ _ _ _ _ _ Ee H) as (x & _ & A). now rewrite fsub_nan_l in A. }
  destruct (fzip_same_len _ _ _ _ _ _ Er N) as (y & _ & A). rewrite fsub_nan_l in A.
  rewrite (fsum_nan rnd (map _ r)); [rewrite fmul_nan_l; apply fmul_nan_r|].
  apply in_map_iff. exists NaN. split; [reflexivity|]. eapply nth_error_In. exact A.
Qed.

(** rounding keeps the sign of numbers that are not negative *)
Definition keeps_sign : Prop := forall r, 0 <= r -> rnd r = PInf \/ exists y, rnd r = Fin y /\ 0 <= y.
Hypothesis KS : keeps_sign.

Definition wide (a : float) : Prop := a = NaN \/ a = PInf.
Definition nonneg (a : float) : Prop := wide a \/ exists y, a = Fin y /\ 0 <= y.

Lemma square_nonneg a : nonneg (fmul rnd a a).
Proof.
  destruct a as [r| | |]; cbn; unfold nonneg, wide; auto.
  destruct (KS (r * r)) as [->|(y & -> & H)]; [nra|auto|right; eauto].
Qed.
Lemma add_nonneg a b : nonneg a -> nonneg b -> nonneg (fadd rnd a b).
Proof.
  unfold nonneg, wide. intros [[->| ->]|(x & -> & Hx)] [[->| ->]|(y & -> & Hy)]; cbn; auto.
  destruct (KS (x + y)) as [->|(z & -> & H)]; [lra|auto|right; eauto].
Qed.
Lemma add_wide a b : nonneg a -> nonneg b -> wide a \/ wide b -> wide (fadd rnd a b).
Proof.
  unfold nonneg, wide. intros [[->| ->]|(x & -> & Hx)] [[->| ->]|(y & -> & Hy)] [[H|H]|[H|H]]; try discriminate; cbn; auto.
Qed.
Lemma fold_wide l z : nonneg z -> Forall nonneg l -> wide z \/ Exists wide l -> wide (fold_left (fadd rnd) l z).
Proof.
  revert z. induction l as [|a l IH]; intros z Hz Hl H.
  - destruct H as [H|H]; [exact H|inversion H].
  - cbn [fold_left]. inversion Hl as [|? ? Ha Hl']; subst. apply IH; auto using add_nonneg.
    destruct H as [H|H]; [left; apply add_wide; auto|]. inversion H; subst; [left; apply add_wide; auto|right; assumption].
Qed.

Definition infinite (a : float) : Prop := a = NaN \/ a = PInf \/ a = NInf.
Lemma sub_infinite a b : infinite a \/ infinite b -> infinite (fsub rnd a b).
Proof. unfold infinite. intros [[->|[->| ->]]|[->|[->| ->]]]; [destruct b|destruct b|destruct b|destruct a|destruct a|destruct a]; cbn; auto. Qed.

Lemma logtrans_infinite delta X1 X2 p gr q i x :
  fltb (Fin 0) (fmul rnd (Fin (1 / 2)) delta) = true ->
  f_logtrans rnd lmda delta X1 X2 p gr = Ok q ->
  nth_error X1 i = Some x -> infinite x -> low q.
Proof.
  intros Hd E Hx Hi. destruct (logtrans_parts _ _ _ _ _ _ E) as (e & h & r & Ee & Er & ->).
  destruct (fzip_same_len_r _ _ _ _ _ _ Ee Hx) as (x2 & _ & A).
  destruct (fzip_same_len _ _ _ _ _ _ Er A) as (y & _ & B).
  assert (Iy : infinite (fsub rnd (fsub rnd x2 x) y)) by (apply sub_infinite; left; apply sub_infinite; now right).
  assert (W : wide (fsum rnd (map (fun x => fmul rnd x x) r))).
  { apply fold_wide.
    - right. exists 0. split; [reflexivity|lra].
    - apply Forall_forall. intros z Hz. apply in_map_iff in Hz. destruct Hz as (z' & <- & _). apply square_nonneg.
    - right. apply Exists_exists. eexists. split; [apply in_map; eapply nth_error_In; exact B|].
      unfold wide. destruct Iy as [->|[->| ->]]; cbn; auto. }
  set (s := fsum rnd _) in *. set (c := fmul rnd (Fin (1 / 2)) delta) in *.
  destruct W as [->| ->]; [left; rewrite fmul_nan_l; apply fmul_nan_r|].
  destruct c as [c| | |]; cbn in Hd |- *; try discriminate; [|right; reflexivity].
  destruct (Rlt_dec 0 c); [|discriminate]. right. unfold finf. destruct (total_order_T (- c) 0) as [[?|?]|?]; try lra. reflexivity.
Qed.
End N.
