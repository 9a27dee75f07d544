(** Families of computations whose arithmetic becomes exact (C66).

    A family is indexed by I; [near P] says that P holds for all indices that are
    close enough to the limit.  [tends v w]: the results w with exact arithmetic are
    numbers of bounded size, and the results v with rounding come arbitrarily close
    to them. *)
From Coq Require Import List ZArith Lia Bool Reals Lra Psatz.
From Coquelicot Require Import Coquelicot.
From Verif Require Import PyBase Ieee IeeeProof RoundProof FloatOps FloatSk.
Import ListNotations.
Notation length := List.length.
Open Scope R_scope.

Section Lim.
Variable I : Type.
Variable near : (I -> Prop) -> Prop.
Variable rnd : I -> R -> float.
Record limit : Prop := {
  li_true : forall P : I -> Prop, (forall i, P i) -> near P;
  li_and : forall P Q, near P -> near Q -> near (fun i => P i /\ Q i);
  li_mono : forall P Q : I -> Prop, (forall i, P i -> Q i) -> near P -> near Q;
  li_acc : forall M e, 0 < e -> near (fun i => accurate (rnd i) M e) }.
Hypothesis LI : limit.

Definition tends (v w : I -> float) : Prop :=
  (exists B, near (fun i => exists x, w i = Fin x /\ Rabs x <= B)) /\
  forall e, 0 < e -> near (fun i => exists x y, w i = Fin x /\ v i = Fin y /\ Rabs (y - x) <= e).
(** for vectors of n entries *)
Definition tendv (n : nat) (V W : I -> fvec) : Prop :=
  near (fun i => length (V i) = n /\ length (W i) = n) /\
  forall k, (k < n)%nat -> tends (fun i => nth k (V i) NaN) (fun i => nth k (W i) NaN).
(** for computations that may raise: neither does *)
Definition tendr {A} (T : (I -> A) -> (I -> A) -> Prop) (V W : I -> res A) : Prop :=
  exists V' W', near (fun i => V i = Ok (V' i) /\ W i = Ok (W' i)) /\ T V' W'.

Lemma both : forall P Q R : I -> Prop, near P -> near Q -> (forall i, P i -> Q i -> R i) -> near R.
Proof. intros P Q R HP HQ H. apply (li_mono LI (fun i => P i /\ Q i)); [intros i (A & B); auto|]. now apply (li_and LI). Qed.

Lemma tends_ext : forall v w v' w', near (fun i => v i = v' i /\ w i = w' i) -> tends v' w' -> tends v w.
Proof.
  intros v w v' w' E ((B & HB) & H). split.
  - exists B. apply (both _ _ _ E HB). intros i (_ & ->). auto.
  - intros e He. apply (both _ _ _ E (H e He)). intros i (-> & ->). auto.
Qed.
Lemma tends_num : forall c, tends (fun _ => Fin c) (fun _ => Fin c).
Proof.
  intros c. split; [exists (Rabs c); apply (li_true LI); intros i; exists c; split; [reflexivity|lra]|].
  intros e He. apply (li_true LI). intros i. exists c, c. repeat (split; [reflexivity|]). rewrite Rminus_diag_eq, Rabs_R0 by reflexivity. lra.
Qed.

(** ** operations that are continuous where the exact values are *)
Record continuous (op : (R -> float) -> float -> float -> float) (h : R -> R -> R) (D : R -> R -> Prop) : Prop := {
  co_bound : forall B, exists B', forall x y, D x y -> Rabs x <= B -> Rabs y <= B -> Rabs (h x y) <= B';
  co_exact : forall x y, D x y -> op Fin (Fin x) (Fin y) = Fin (h x y);
  co_cont : forall B e, 0 < e -> exists d, 0 < d /\ forall x y x' y', D x y -> Rabs x <= B -> Rabs y <= B -> Rabs (x' - x) <= d -> Rabs (y' - y) <= d ->
    (forall r, op r (Fin x') (Fin y') = r (h x' y') \/ op r (Fin x') (Fin y') = Fin (h x' y')) /\ Rabs (h x' y' - h x y) <= e }.

Lemma tends_op : forall op h D a b a' b', continuous op h D -> tends a a' -> tends b b' ->
  near (fun i => forall x y, a' i = Fin x -> b' i = Fin y -> D x y) ->
  tends (fun i => op (rnd i) (a i) (b i)) (fun i => op Fin (a' i) (b' i)).
Proof.
  intros op h D a b a' b' [CB CE CC] ((Ba & Na) & Ta) ((Bb & Nb) & Tb) ND.
  set (B := Rmax Ba Bb). assert (M1 := Rmax_l Ba Bb). assert (M2 := Rmax_r Ba Bb). fold B in M1, M2. destruct (CB B) as (B' & HB').
  assert (N : near (fun i => exists x y, a' i = Fin x /\ b' i = Fin y /\ Rabs x <= B /\ Rabs y <= B /\ D x y)).
  { apply (both _ _ _ (li_and LI _ _ Na Nb) ND). intros i ((x & Ex & Hx) & (y & Ey & Hy)) H. exists x, y. rewrite Ex, Ey in *. repeat (split; [auto; lra|]). auto. }
  split.
  - exists B'. apply (li_mono LI _ _) with (2 := N). intros i (x & y & Ex & Ey & Hx & Hy & Dxy). exists (h x y). rewrite Ex, Ey, CE by auto. split; [reflexivity|]. auto.
  - intros e He. destruct (CC B (e / 2) ltac:(lra)) as (d & Hd & C). set (M := B' + e / 2).
    assert (AC := li_acc LI M (e / 2) ltac:(lra)).
    apply (both _ _ _ (li_and LI _ _ (Ta d Hd) (Tb d Hd)) (li_and LI _ _ N AC)).
    intros i ((x0 & x' & E1 & E2 & Hx') & (y0 & y' & E3 & E4 & Hy')) ((x & y & Ex & Ey & Hx & Hy & Dxy) & (_ & AC')).
    rewrite Ex in E1. injection E1 as <-. rewrite Ey in E3. injection E3 as <-.
    destruct (C x y x' y' Dxy Hx Hy Hx' Hy') as (O & HC). exists (h x y). rewrite Ex, Ey, CE by auto. rewrite E2, E4.
    assert (HB := HB' x y Dxy Hx Hy).
    destruct (O (rnd i)) as [E|E]; rewrite E; clear E.
    + destruct (AC' (h x' y')) as (u & Eu & Hu).
      { unfold M. replace (h x' y') with (h x y + (h x' y' - h x y)) by ring. eapply Rle_trans; [apply Rabs_triang|]. lra. }
      exists u. split; [reflexivity|]. split; [exact Eu|]. replace (u - h x y) with ((u - h x' y') + (h x' y' - h x y)) by ring.
      eapply Rle_trans; [apply Rabs_triang|]. lra.
    + exists (h x' y'). split; [reflexivity|]. split; [reflexivity|]. lra.
Qed.

Lemma cont_add : continuous fadd Rplus (fun _ _ => True).
Proof.
  constructor.
  - intros B. exists (B + B). intros x y _ Hx Hy. eapply Rle_trans; [apply Rabs_triang|]. lra.
  - reflexivity.
  - intros B e He. exists (e / 2). split; [lra|]. intros x y x' y' _ _ _ Hx Hy. split; [left; reflexivity|].
    replace (x' + y' - (x + y)) with ((x' - x) + (y' - y)) by ring. eapply Rle_trans; [apply Rabs_triang|]. lra.
Qed.
Lemma cont_sub : continuous fsub Rminus (fun _ _ => True).
Proof.
  constructor.
  - intros B. exists (B + B). intros x y _ Hx Hy. eapply Rle_trans; [apply Rabs_triang|]. rewrite Rabs_Ropp. lra.
  - reflexivity.
  - intros B e He. exists (e / 2). split; [lra|]. intros x y x' y' _ _ _ Hx Hy. split; [left; reflexivity|].
    replace (x' - y' - (x - y)) with ((x' - x) + - (y' - y)) by ring. eapply Rle_trans; [apply Rabs_triang|]. rewrite Rabs_Ropp. lra.
Qed.
Lemma cont_mul : continuous fmul Rmult (fun _ _ => True).
Proof.
  constructor.
  - intros B. exists (B * B). intros x y _ Hx Hy. rewrite Rabs_mult. apply Rmult_le_compat; auto using Rabs_pos.
  - reflexivity.
  - intros B e He. set (b := Rabs B + 1). assert (Hb : 1 <= b) by (assert (Q := Rabs_pos B); unfold b; lra).
    exists (Rmin 1 (e / (2 * b + 1))). assert (0 < e / (2 * b + 1)) by (apply Rdiv_lt_0_compat; lra). split; [apply Rmin_glb_lt; lra|].
    intros x y x' y' _ Hx Hy Hx' Hy'. split; [left; reflexivity|].
    set (d := Rmin 1 (e / (2 * b + 1))) in *. assert (D1 : d <= 1) by apply Rmin_l. assert (D2 : d <= e / (2 * b + 1)) by apply Rmin_r.
    assert (BB : B <= b) by (assert (Q := Rle_abs B); unfold b; lra).
    replace (x' * y' - x * y) with ((x' - x) * (y' - y) + (x * (y' - y) + (x' - x) * y)) by ring.
    assert (P1 := Rabs_pos (x' - x)). assert (P2 := Rabs_pos (y' - y)). assert (P3 := Rabs_pos x). assert (P4 := Rabs_pos y).
    assert (A1 : Rabs ((x' - x) * (y' - y)) <= 1 * d) by (rewrite Rabs_mult; apply Rmult_le_compat; lra).
    assert (A2 : Rabs (x * (y' - y)) <= b * d) by (rewrite Rabs_mult; apply Rmult_le_compat; lra).
    assert (A3 : Rabs ((x' - x) * y) <= d * b) by (rewrite Rabs_mult; apply Rmult_le_compat; lra).
    assert (A4 : d * (2 * b + 1) <= e).
    { apply Rle_trans with (e / (2 * b + 1) * (2 * b + 1)); [apply Rmult_le_compat_r; lra|]. right. field. lra. }
    eapply Rle_trans; [apply Rabs_triang|]. eapply Rle_trans; [apply Rplus_le_compat; [exact A1|apply Rabs_triang]|]. lra.
Qed.
Lemma cont_div : forall m, 0 < m -> continuous fdiv Rdiv (fun _ y => m <= Rabs y).
Proof.
  intros m Hm. assert (NZ : forall y, m <= Rabs y -> y <> 0) by (intros y H ->; rewrite Rabs_R0 in H; lra).
  assert (IB : forall y k, 0 < k -> k <= Rabs y -> Rabs (/ y) <= / k).
  { intros y k Hk H. assert (y <> 0) by (intros ->; rewrite Rabs_R0 in H; lra). rewrite Rabs_inv by auto. apply Rinv_le_contravar; auto. }
  constructor.
  - intros B. exists (B * / m). intros x y Hy Hx _. unfold Rdiv. rewrite Rabs_mult. apply Rmult_le_compat; auto using Rabs_pos.
  - intros x y Hy. cbn. destruct (Req_EM_T y 0) as [E|]; [elim (NZ y Hy E)|reflexivity].
  - intros B e He. set (b := Rabs B + 1). assert (Hb : 1 <= b) by (assert (Q := Rabs_pos B); unfold b; lra). assert (BB : B <= b) by (assert (Q := Rle_abs B); unfold b; lra).
    set (c := e * (m * m) / (4 * b + 2 * m)). assert (0 < c) by (apply Rdiv_lt_0_compat; [repeat apply Rmult_lt_0_compat; lra|lra]).
    exists (Rmin (m / 2) c). split; [apply Rmin_glb_lt; lra|]. intros x y x' y' Hy Hx HyB Hx' Hy'.
    set (d := Rmin (m / 2) c) in *. assert (D1 : d <= m / 2) by apply Rmin_l. assert (D2 : d <= c) by apply Rmin_r.
    assert (Y' : m / 2 <= Rabs y').
    { assert (Q := Rabs_triang_inv y (y - y')). replace (y - (y - y')) with y' in Q by ring. rewrite Rabs_minus_sym in Hy'. lra. }
    assert (N' : y' <> 0) by (intros ->; rewrite Rabs_R0 in Y'; lra). assert (N := NZ y Hy).
    split; [intros r; left; cbn; destruct (Req_EM_T y' 0); [contradiction|reflexivity]|].
    assert (EQ : x' / y' - x / y = (y * (x' - x) + x * (y - y')) * (/ y * / y')) by (field; auto). rewrite EQ, Rabs_mult.
    assert (Q1 : Rabs (/ y * / y') <= / m * / (m / 2)) by (rewrite Rabs_mult; apply Rmult_le_compat; auto using Rabs_pos; apply IB; lra).
    assert (Q2 : Rabs (y * (x' - x) + x * (y - y')) <= 2 * b * d).
    { eapply Rle_trans; [apply Rabs_triang|]. rewrite !Rabs_mult, (Rabs_minus_sym y y').
      assert (Rabs y * Rabs (x' - x) <= b * d) by (apply Rmult_le_compat; auto using Rabs_pos; lra).
      assert (Rabs x * Rabs (y' - y) <= b * d) by (apply Rmult_le_compat; auto using Rabs_pos; lra). lra. }
    apply Rle_trans with (2 * b * d * (/ m * / (m / 2))); [apply Rmult_le_compat; auto using Rabs_pos|].
    assert (I1 : / m * / (m / 2) = 2 / (m * m)) by (field; lra). rewrite I1.
    assert (P2 : 0 < 2 / (m * m)) by (apply Rdiv_lt_0_compat; [lra|apply Rmult_lt_0_compat; lra]).
    apply Rle_trans with (2 * b * c * (2 / (m * m))); [apply Rmult_le_compat_r; [lra|]; apply Rmult_le_compat_l; lra|].
    unfold c. apply Rle_trans with (e * (4 * b / (4 * b + 2 * m))); [right; field; lra|].
    rewrite <- (Rmult_1_r e) at 2. apply Rmult_le_compat_l; [lra|]. apply (Rmult_le_reg_r (4 * b + 2 * m)); [lra|]. unfold Rdiv. rewrite Rmult_assoc, Rinv_l by lra. lra.
Qed.
Lemma cont_sqrt : forall m, 0 < m -> continuous (fun r a _ => fsqrt r a) (fun x _ => sqrt x) (fun x _ => m <= x).
Proof.
  intros m Hm. constructor.
  - intros B. exists (B + 1). intros x _ Hx HB _. rewrite Rabs_pos_eq by apply sqrt_pos. rewrite Rabs_pos_eq in HB by lra.
    apply Rsqr_incr_0; [|apply sqrt_pos|lra]. rewrite Rsqr_sqrt by lra. unfold Rsqr. nra.
  - intros x _ Hx. cbn. destruct (Rlt_dec x 0); [lra|reflexivity].
  - intros B e He. exists (Rmin (m / 2) (e * sqrt m)). assert (S0 : 0 < sqrt m) by (apply sqrt_lt_R0; lra).
    split; [apply Rmin_glb_lt; [lra|now apply Rmult_lt_0_compat]|]. intros x _ x' _ Hx _ _ Hx' _.
    assert (D1 := Rle_trans _ _ _ Hx' (Rmin_l _ _)). assert (D2 := Rle_trans _ _ _ Hx' (Rmin_r _ _)). apply Rabs_le_between in D1.
    split; [intros r; left; cbn; destruct (Rlt_dec x' 0); [lra|reflexivity]|].
    assert (S1 : sqrt m <= sqrt x) by (apply sqrt_le_1_alt; lra). assert (S2 : 0 <= sqrt x') by apply sqrt_pos.
    replace (sqrt x' - sqrt x) with ((x' - x) / (sqrt x' + sqrt x)).
    + unfold Rdiv. rewrite Rabs_mult, Rabs_inv, (Rabs_pos_eq (sqrt x' + sqrt x)) by lra.
      apply (Rmult_le_reg_r (sqrt x' + sqrt x)); [lra|]. rewrite Rmult_assoc, Rinv_l, Rmult_1_r by lra. eapply Rle_trans; [exact D2|]. apply Rmult_le_compat_l; lra.
    + apply (Rmult_eq_reg_r (sqrt x' + sqrt x)); [|lra]. unfold Rdiv. rewrite Rmult_assoc, Rinv_l by lra.
      replace ((sqrt x' - sqrt x) * (sqrt x' + sqrt x)) with (sqrt x' * sqrt x' - sqrt x * sqrt x) by ring. rewrite !sqrt_sqrt by lra. ring.
Qed.
Lemma cont_neg : continuous (fun _ a _ => fneg a) (fun x _ => - x) (fun _ _ => True).
Proof.
  constructor.
  - intros B. exists B. intros x _ _ Hx _. now rewrite Rabs_Ropp.
  - reflexivity.
  - intros B e He. exists e. split; [auto|]. intros x y x' y' _ _ _ Hx _. split; [right; reflexivity|]. replace (- x' - - x) with (- (x' - x)) by ring. now rewrite Rabs_Ropp.
Qed.
Lemma cont_abs : continuous (fun _ a _ => fabs a) (fun x _ => Rabs x) (fun _ _ => True).
Proof.
  constructor.
  - intros B. exists B. intros x _ _ Hx _. now rewrite Rabs_Rabsolu.
  - reflexivity.
  - intros B e He. exists e. split; [auto|]. intros x y x' y' _ _ _ Hx _. split; [right; reflexivity|]. eapply Rle_trans; [apply Rabs_triang_inv2|exact Hx].
Qed.
Lemma cont_rnd : forall c, continuous (fun r _ _ => r c) (fun _ _ => c) (fun _ _ => True).
Proof.
  intros c. constructor.
  - intros B. exists (Rabs c). intros. lra.
  - reflexivity.
  - intros B e He. exists 1. split; [lra|]. intros. split; [left; reflexivity|]. rewrite Rminus_diag_eq, Rabs_R0 by reflexivity. lra.
Qed.

Lemma t_all : forall (a' b' : I -> float), near (fun i => forall x y, a' i = Fin x -> b' i = Fin y -> True).
Proof. intros. apply (li_true LI). auto. Qed.
Lemma t_add : forall a b a' b', tends a a' -> tends b b' -> tends (fun i => fadd (rnd i) (a i) (b i)) (fun i => fadd Fin (a' i) (b' i)).
Proof. intros. apply (tends_op _ _ _ _ _ _ _ cont_add); auto. apply t_all. Qed.
Lemma t_sub : forall a b a' b', tends a a' -> tends b b' -> tends (fun i => fsub (rnd i) (a i) (b i)) (fun i => fsub Fin (a' i) (b' i)).
Proof. intros. apply (tends_op _ _ _ _ _ _ _ cont_sub); auto. apply t_all. Qed.
Lemma t_mul : forall a b a' b', tends a a' -> tends b b' -> tends (fun i => fmul (rnd i) (a i) (b i)) (fun i => fmul Fin (a' i) (b' i)).
Proof. intros. apply (tends_op _ _ _ _ _ _ _ cont_mul); auto. apply t_all. Qed.
Lemma t_neg : forall a a', tends a a' -> tends (fun i => fneg (a i)) (fun i => fneg (a' i)).
Proof. intros a a' H. apply (tends_op _ _ _ a a a' a' cont_neg); auto. apply t_all. Qed.
Lemma t_abs : forall a a', tends a a' -> tends (fun i => fabs (a i)) (fun i => fabs (a' i)).
Proof. intros a a' H. apply (tends_op _ _ _ a a a' a' cont_abs); auto. apply t_all. Qed.
Lemma t_rnd : forall c, tends (fun i => rnd i c) (fun _ => Fin c).
Proof. intros c. apply (tends_op _ _ _ (fun _ => Fin 0) (fun _ => Fin 0) (fun _ => Fin 0) (fun _ => Fin 0) (cont_rnd c)); auto using tends_num. apply t_all. Qed.
(** quotients by values that stay away from zero *)
Definition apart (b' : I -> float) : Prop := exists m, 0 < m /\ near (fun i => forall y, b' i = Fin y -> m <= Rabs y).
Lemma apart_num : forall c, c <> 0 -> apart (fun _ => Fin c).
Proof. intros c H. exists (Rabs c). split; [now apply Rabs_pos_lt|]. apply (li_true LI). intros i y E. injection E as <-. lra. Qed.
Lemma t_div : forall a b a' b', tends a a' -> tends b b' -> apart b' -> tends (fun i => fdiv (rnd i) (a i) (b i)) (fun i => fdiv Fin (a' i) (b' i)).
Proof.
  intros a b a' b' Ta Tb (m & Hm & N). apply (tends_op _ _ _ _ _ _ _ (cont_div m Hm)); auto. apply (li_mono LI _ _) with (2 := N). intros i H x y _ E. auto.
Qed.
Lemma t_pydiv : forall a b a' b', tends a a' -> tends b b' -> apart b' -> tendr tends (fun i => py_fdiv (rnd i) (a i) (b i)) (fun i => py_fdiv Fin (a' i) (b' i)).
Proof.
  intros a b a' b' Ta Tb AP. exists (fun i => fdiv (rnd i) (a i) (b i)), (fun i => fdiv Fin (a' i) (b' i)). split; [|now apply t_div].
  destruct AP as (m & Hm & N). destruct Tb as (_ & Tb). apply (both _ _ _ N (Tb (m / 2) ltac:(lra))). intros i H (x & y & Ex & Ey & Hxy).
  assert (Hx := H x Ex). rewrite Ex, Ey. cbn [py_fdiv].
  assert (Y : m / 2 <= Rabs y). { assert (Q := Rabs_triang_inv x (x - y)). replace (x - (x - y)) with y in Q by ring. rewrite (Rabs_minus_sym x y) in Q. lra. }
  destruct (Req_EM_T y 0) as [->|]; [rewrite Rabs_R0 in Y; lra|]. destruct (Req_EM_T x 0) as [->|]; [rewrite Rabs_R0 in Hx; lra|]. auto.
Qed.
Lemma t_sqrt : forall a a' m, 0 < m -> tends a a' -> near (fun i => forall x, a' i = Fin x -> m <= x) -> tends (fun i => fsqrt (rnd i) (a i)) (fun i => fsqrt Fin (a' i)).
Proof.
  intros a a' m Hm Ta N. apply (tends_op _ _ _ a a a' a' (cont_sqrt m Hm)); auto. apply (li_mono LI _ _) with (2 := N). intros i H x y E _. auto.
Qed.

(** sums *)
Lemma t_fold : forall (L L' : list (I -> float)) a a', Forall2 tends L L' -> tends a a' ->
  tends (fun i => fold_left (fadd (rnd i)) (map (fun v => v i) L) (a i)) (fun i => fold_left (fadd Fin) (map (fun v => v i) L') (a' i)).
Proof.
  intros L L' a a' H. revert a a'. induction H as [|v v' L L' Hv H IH]; intros a a' Ha; cbn [map fold_left]; [exact Ha|].
  apply (IH (fun i => fadd (rnd i) (a i) (v i)) (fun i => fadd Fin (a' i) (v' i))). now apply t_add.
Qed.
Lemma t_sum : forall (L L' : list (I -> float)), Forall2 tends L L' ->
  tends (fun i => fsum (rnd i) (map (fun v => v i) L)) (fun i => fsum Fin (map (fun v => v i) L')).
Proof. intros L L' H. apply t_fold; [exact H|apply tends_num]. Qed.

(** ** vectors *)
Lemma tendv_ext : forall n V W V' W', near (fun i => V i = V' i /\ W i = W' i) -> tendv n V' W' -> tendv n V W.
Proof.
  intros n V W V' W' E (L & H). split.
  - apply (both _ _ _ E L). intros i (-> & ->). auto.
  - intros k Hk. apply (tends_ext _ _ (fun i => nth k (V' i) NaN) (fun i => nth k (W' i) NaN)); [|now apply H]. apply (li_mono LI _ _) with (2 := E). intros i (-> & ->). auto.
Qed.
Lemma t_zip : forall op n A B A' B', tendv n A A' -> tendv n B B' ->
  (forall a b a' b', tends a a' -> tends b b' -> tends (fun i => op (rnd i) (a i) (b i)) (fun i => op Fin (a' i) (b' i))) ->
  tendr (tendv n) (fun i => fzip (op (rnd i)) (A i) (B i)) (fun i => fzip (op Fin) (A' i) (B' i)).
Proof.
  intros op n A B A' B' (LA & HA) (LB & HB) HO.
  exists (fun i => zipf (op (rnd i)) (A i) (B i)), (fun i => zipf (op Fin) (A' i) (B' i)).
  assert (LL := li_and LI _ _ LA LB). split; [|split].
  - apply (li_mono LI _ _) with (2 := LL). intros i ((L1 & L2) & (L3 & L4)). split; apply fzip_zipf; congruence.
  - apply (li_mono LI _ _) with (2 := LL). intros i ((L1 & L2) & (L3 & L4)). split; rewrite zipf_length; congruence.
  - intros k Hk. apply (tends_ext _ _ (fun i => op (rnd i) (nth k (A i) NaN) (nth k (B i) NaN)) (fun i => op Fin (nth k (A' i) NaN) (nth k (B' i) NaN))); [|auto].
    assert (Z : forall o a b, length a = n -> length b = n -> nth k (zipf o a b) NaN = o (nth k a NaN) (nth k b NaN)).
    { intros o a b L1 L2. unfold zipf. rewrite (nth_indep _ NaN (o (fst (NaN, NaN)) (snd (NaN, NaN)))) by (rewrite map_length, combine_length; lia).
      rewrite (map_nth (fun p => o (fst p) (snd p))), combine_nth by congruence. reflexivity. }
    apply (li_mono LI _ _) with (2 := LL). intros i ((L1 & L2) & (L3 & L4)). split; apply Z; auto.
Qed.
Lemma t_map : forall (op : I -> float -> float) op' n A A', tendv n A A' ->
  (forall a a', tends a a' -> tends (fun i => op i (a i)) (fun i => op' i (a' i))) ->
  tendv n (fun i => map (op i) (A i)) (fun i => map (op' i) (A' i)).
Proof.
  intros op op' n A A' (L & H) HO. split.
  - apply (li_mono LI _ _) with (2 := L). intros i (L1 & L2). now rewrite !map_length.
  - intros k Hk. apply (tends_ext _ _ (fun i => op i (nth k (A i) NaN)) (fun i => op' i (nth k (A' i) NaN))); [|auto].
    assert (Z : forall (o : float -> float) a, length a = n -> nth k (map o a) NaN = o (nth k a NaN)).
    { intros o a L1. rewrite (nth_indep _ NaN (o NaN)) by (rewrite map_length; lia). apply map_nth. }
    apply (li_mono LI _ _) with (2 := L). intros i (L1 & L2). split; apply Z; auto.
Qed.
Lemma t_scal : forall n c c' A A', tends c c' -> tendv n A A' -> tendv n (fun i => fscal (rnd i) (c i) (A i)) (fun i => fscal Fin (c' i) (A' i)).
Proof. intros n c c' A A' Hc HA. unfold fscal. apply (t_map (fun i => fmul (rnd i) (c i)) (fun i => fmul Fin (c' i))); auto. intros. now apply t_mul. Qed.
(** a vector is the list of its entries *)
Lemma entries : forall n (a : fvec), length a = n -> a = map (fun k => nth k a NaN) (seq 0 n).
Proof.
  induction n as [|n IH]; intros [|x a] L; cbn in L; try lia; [reflexivity|]. cbn [seq map]. f_equal. rewrite <- seq_shift, map_map. apply IH. lia.
Qed.
Lemma t_sumv : forall n A A', tendv n A A' -> tends (fun i => fsum (rnd i) (A i)) (fun i => fsum Fin (A' i)).
Proof.
  intros n A A' (L & H).
  apply (tends_ext _ _ (fun i => fsum (rnd i) (map (fun v : I -> float => v i) (map (fun k i => nth k (A i) NaN) (seq 0 n))))
    (fun i => fsum Fin (map (fun v : I -> float => v i) (map (fun k i => nth k (A' i) NaN) (seq 0 n))))).
  - apply (li_mono LI _ _) with (2 := L). intros i (L1 & L2). rewrite !map_map. split; f_equal; apply entries; auto.
  - apply t_sum. assert (Q : forall k, In k (seq 0 n) -> (k < n)%nat) by (intros k; rewrite in_seq; lia). revert Q. generalize (seq 0 n). induction l as [|k l IH]; intros Q; cbn; constructor.
    + apply H, Q. now left.
    + apply IH. intros; apply Q. now right.
Qed.

(** ** computations that may raise *)
Lemma tendr_ok : forall {A} (T : (I -> A) -> (I -> A) -> Prop) V W, T V W -> tendr T (fun i => Ok (V i)) (fun i => Ok (W i)).
Proof. intros A T V W H. exists V, W. split; [|exact H]. apply (li_true LI). auto. Qed.
Lemma tendr_bind : forall {A B} (T : (I -> A) -> (I -> A) -> Prop) (U : (I -> B) -> (I -> B) -> Prop) V W (k k' : I -> A -> res B),
  tendr T V W -> (forall V' W', T V' W' -> tendr U (fun i => k i (V' i)) (fun i => k' i (W' i))) ->
  tendr U (fun i => rbind (V i) (k i)) (fun i => rbind (W i) (k' i)).
Proof.
  intros A B T U V W k k' (V' & W' & E & H) HK. destruct (HK V' W' H) as (V2 & W2 & E2 & H2). exists V2, W2. split; [|exact H2].
  apply (both _ _ _ E E2). intros i (-> & ->) (F1 & F2). cbn. auto.
Qed.
Lemma tendr_ext : forall {A} (T : (I -> A) -> (I -> A) -> Prop) V W V' W', near (fun i => V i = V' i /\ W i = W' i) -> tendr T V' W' -> tendr T V W.
Proof. intros A T V W V' W' E (a & b & N & H). exists a, b. split; [|exact H]. apply (both _ _ _ E N). intros i (-> & ->). auto. Qed.
End Lim.
