(** The programs of Ieee.v, FloatOps.v and FloatSk.v in a family whose arithmetic
    becomes exact (C66). *)
From Coq Require Import List ZArith Lia Bool Reals Lra Psatz.
From Coquelicot Require Import Coquelicot.
From Verif Require Import PyBase Ieee IeeeProof RoundProof FloatOps FloatProof FloatNear FloatSk FloatSkProof LimProof.
Import ListNotations.
Notation length := List.length.
Open Scope R_scope.

Section Prog.
Variable I : Type.
Variable near : (I -> Prop) -> Prop.
Variable rnd : I -> R -> float.
Hypothesis LI : limit I near rnd.
Local Notation tends := (tends I near).
Local Notation tendv := (tendv I near).
Local Notation tendr := (tendr I near).
Local Notation both := (both I near rnd LI).
Definition tend3 (V W : I -> float * float * float) : Prop :=
  tends (fun i => fst (fst (V i))) (fun i => fst (fst (W i))) /\ tends (fun i => snd (fst (V i))) (fun i => snd (fst (W i))) /\
  tends (fun i => snd (V i)) (fun i => snd (W i)).

(** ** the coefficients of SKROCK *)
Lemma t_cheb1 : forall X X', tends X X' -> forall n, tends (fun i => f_cheb1 (rnd i) (X i) n) (fun i => f_cheb1 Fin (X' i) n).
Proof.
  intros X X' HX. assert (Q : forall n, tends (fun i => f_cheb1 (rnd i) (X i) n) (fun i => f_cheb1 Fin (X' i) n) /\
    tends (fun i => f_cheb1 (rnd i) (X i) (S n)) (fun i => f_cheb1 Fin (X' i) (S n))); [|intros n; apply Q].
  induction n as [|n (A & B)]; [split; [apply (tends_num _ _ _ LI)|exact HX]|]. split; [exact B|].
  apply (t_sub _ _ _ LI (fun i => fmul (rnd i) (fmul (rnd i) (Fin 2) (X i)) (f_cheb1 (rnd i) (X i) (S n))) _ (fun i => fmul Fin (fmul Fin (Fin 2) (X' i)) (f_cheb1 Fin (X' i) (S n)))); [|exact A].
  apply (t_mul _ _ _ LI); [|exact B]. apply (t_mul _ _ _ LI); [apply (tends_num _ _ _ LI)|exact HX].
Qed.
Lemma t_cheb2 : forall X X', tends X X' -> forall n, tends (fun i => f_cheb2 (rnd i) (X i) n) (fun i => f_cheb2 Fin (X' i) n).
Proof.
  intros X X' HX. assert (HX2 := t_mul _ _ _ LI _ _ _ _ (tends_num _ _ _ LI 2) HX).
  assert (Q : forall n, tends (fun i => f_cheb2 (rnd i) (X i) n) (fun i => f_cheb2 Fin (X' i) n) /\
    tends (fun i => f_cheb2 (rnd i) (X i) (S n)) (fun i => f_cheb2 Fin (X' i) (S n))); [|intros n; apply Q].
  induction n as [|n (A & B)]; [split; [apply (tends_num _ _ _ LI)|exact HX2]|]. split; [exact B|].
  apply (t_sub _ _ _ LI (fun i => fmul (rnd i) (fmul (rnd i) (Fin 2) (X i)) (f_cheb2 (rnd i) (X i) (S n))) _ (fun i => fmul Fin (fmul Fin (Fin 2) (X' i)) (f_cheb2 Fin (X' i) (S n)))); [|exact A].
  apply (t_mul _ _ _ LI); [exact HX2|exact B].
Qed.
(** a computation without input: the exact result is a constant *)
Definition tendc (V : I -> res float) (w : float) : Prop := exists V', near (fun i => V i = Ok (V' i)) /\ tends V' (fun _ => w).
Lemma t_pydiv_ok : forall a b a' b' c, tends a (fun _ => a') -> tends b (fun _ => b') -> py_fdiv Fin a' b' = Ok c ->
  tendc (fun i => py_fdiv (rnd i) (a i) (b i)) c.
Proof.
  intros a b a' b' c Ta Tb E.
  assert (T : tendr tends (fun i => py_fdiv (rnd i) (a i) (b i)) (fun _ => py_fdiv Fin a' b')).
  { apply (t_pydiv _ _ _ LI a b (fun _ => a') (fun _ => b') Ta Tb).
    destruct b' as [y| | |]; try (exists 1; split; [lra|]; apply (li_true _ _ _ LI); discriminate).
    apply (apart_num _ _ _ LI). intros ->. cbn in E. destruct (Req_EM_T 0 0); [discriminate|contradiction]. }
  destruct T as (V & W & N & T). exists V. split; [apply (li_mono _ _ _ LI _ _) with (2 := N); tauto|].
  apply (tends_ext _ _ _ LI _ _ V W); [|exact T]. apply (li_mono _ _ _ LI _ _) with (2 := N). intros i (_ & H). split; [reflexivity|]. congruence.
Qed.
Lemma t_omega_0 : forall s, (s <> 0)%Z -> tends (fun i => f_omega_0 (rnd i) s) (fun _ => f_omega_0 Fin s).
Proof.
  intros s Hs. apply (t_add _ _ _ LI _ _ (fun _ => Fin 1) (fun _ => fdiv Fin (Fin (5 / 100)) (Fin (IZR (s * s))))); [apply (tends_num _ _ _ LI)|].
  apply (t_div _ _ _ LI _ _ (fun _ => Fin (5 / 100)) (fun _ => Fin (IZR (s * s)))); try apply (t_rnd _ _ _ LI). apply (apart_num _ _ _ LI). intros E. apply eq_IZR in E. nia.
Qed.
Lemma t_omega_1 : forall s w, f_omega_1 Fin s = Ok w -> tendc (fun i => f_omega_1 (rnd i) s) w.
Proof.
  intros s w E. unfold f_omega_1 in *. destruct (Z.eqb_spec s 0); [discriminate|]. destruct (Z.ltb_spec s 0); [discriminate|].
  assert (T0 := t_omega_0 s ltac:(auto)).
  apply (t_pydiv_ok _ _ (f_cheb1 Fin (f_omega_0 Fin s) (Z.to_nat s)) (f_cheb1der Fin (f_omega_0 Fin s) (Z.to_nat s))) with (3 := E); [exact (t_cheb1 _ _ T0 (Z.to_nat s))|].
  unfold f_cheb1der, f_int, flit. apply (t_mul _ _ _ LI _ _ (fun _ => Fin _) (fun _ => f_cheb2 Fin (f_omega_0 Fin s) (Z.to_nat s - 1))); [apply (t_rnd _ _ _ LI)|apply (t_cheb2 _ _ T0)].
Qed.
Lemma t_coef : forall s j a b c, f_coef Fin s j = Ok (a, b, c) -> exists V, near (fun i => f_coef (rnd i) s j = Ok (V i)) /\
  tends (fun i => fst (fst (V i))) (fun _ => a) /\ tends (fun i => snd (fst (V i))) (fun _ => b) /\ tends (fun i => snd (V i)) (fun _ => c).
Proof.
  intros s j a b c E. unfold f_coef in *. destruct (f_omega_1 Fin s) as [w1|] eqn:E1; [|discriminate]. cbn [rbind] in E.
  assert (NZ : s <> 0%Z). { intros ->. unfold f_omega_1 in E1. discriminate. }
  assert (T0 := t_omega_0 s NZ). assert (TS : tends (fun i => f_int (rnd i) s) (fun _ => f_int Fin s)) by apply (t_rnd _ _ _ LI).
  assert (T2 := tends_num _ _ _ LI 2). destruct (t_omega_1 s w1 E1) as (V1 & N1 & T1). destruct j as [|[|j]].
  - injection E as <- <- <-. exists (fun _ => (Fin 0, Fin 0, Fin 0)). split; [apply (li_mono _ _ _ LI _ _) with (2 := N1); intros i ->; reflexivity|]. cbn [fst snd]. split; [|split]; apply (tends_num _ _ _ LI).
  - destruct (py_fdiv Fin w1 (f_omega_0 Fin s)) as [mu|] eqn:E2; [|discriminate]. cbn [rbind] in E.
    destruct (py_fdiv Fin (fmul Fin (f_int Fin s) w1) (f_omega_0 Fin s)) as [k|] eqn:E3; [|discriminate]. cbn [rbind] in E. injection E as <- <- <-.
    assert (T3 := t_mul _ _ _ LI _ _ (fun _ => f_int Fin s) (fun _ => w1) TS T1).
    destruct (t_pydiv_ok _ _ _ _ _ T1 T0 E2) as (V2 & N2 & T2').
    destruct (t_pydiv_ok _ _ (fmul Fin (f_int Fin s) w1) (f_omega_0 Fin s) _ T3 T0 E3) as (V3 & N3 & T3').
    exists (fun i => (V2 i, fdiv (rnd i) (fmul (rnd i) (f_int (rnd i) s) (V1 i)) (Fin 2), V3 i)). split.
    + apply (both _ _ _ N1 (li_and _ _ _ LI _ _ N2 N3)). intros i -> (A & B). cbn [rbind]. rewrite A, B. reflexivity.
    + cbn [fst snd]. split; [exact T2'|]. split; [|exact T3'].
      apply (t_div _ _ _ LI _ _ (fun _ => fmul Fin (f_int Fin s) w1) (fun _ => Fin 2) T3 T2). apply (apart_num _ _ _ LI). lra.
  - destruct (py_fdiv Fin (f_cheb1 Fin (f_omega_0 Fin s) (S (S j) - 1)) (f_cheb1 Fin w1 (S (S j)))) as [u|] eqn:E2; [|discriminate]. cbn [rbind] in E. injection E as <- <- <-.
    destruct (t_pydiv_ok _ _ (f_cheb1 Fin (f_omega_0 Fin s) (S (S j) - 1)) (f_cheb1 Fin w1 (S (S j))) u (t_cheb1 _ _ T0 (S (S j) - 1)) (t_cheb1 _ _ T1 (S (S j))) E2) as (V2 & N2 & T2').
    exists (fun i => (fmul (rnd i) (fmul (rnd i) (Fin 2) (V1 i)) (V2 i), fmul (rnd i) (fmul (rnd i) (Fin 2) (f_omega_0 (rnd i) s)) (V2 i), fsub (rnd i) (Fin 1) (Fin 0))). split.
    + apply (both _ _ _ N1 N2). intros i -> A. cbn [rbind]. rewrite A. reflexivity.
    + cbn [fst snd]. split; [|split].
      * apply (t_mul _ _ _ LI _ _ (fun _ => fmul Fin (Fin 2) w1) (fun _ => u)); [|exact T2']. apply (t_mul _ _ _ LI _ _ (fun _ => Fin 2) (fun _ => w1)); auto.
      * apply (t_mul _ _ _ LI _ _ (fun _ => fmul Fin (Fin 2) (f_omega_0 Fin s)) (fun _ => u)); [|exact T2']. apply (t_mul _ _ _ LI _ _ (fun _ => Fin 2) (fun _ => f_omega_0 Fin s)); auto.
      * apply (t_sub _ _ _ LI _ _ (fun _ => Fin 1) (fun _ => Fin 0)); apply (tends_num _ _ _ LI).
Qed.

(** ** a problem whose operators become exact *)
Record tendp (n m : nat) (f : I -> fl_problem) (f' : fl_problem) : Prop := {
  tp_n : forall i, fp_nparams (f i) = n;
  tp_n' : fp_nparams f' = n;
  tp_data : tendv m (fun i => fp_data (f i)) (fun _ => fp_data f');
  tp_cov : forall V W, tendv m V W -> tendr (tendv m) (fun i => f_matvec (rnd i) (fp_invcov (f i)) (V i)) (fun i => f_matvec Fin (fp_invcov f') (W i));
  tp_forward : forall V W, tendv n V W -> tendr (tendv m) (fun i => fp_forward (f i) (V i)) (fun i => fp_forward f' (W i));
  tp_gradg : forall V W, tendv m V W -> tendr (tendv n) (fun i => fp_gradg (f i) (V i)) (fun i => fp_gradg f' (W i));
  tp_proxf : forall V W, tendv n V W -> tendr (tendv n) (fun i => fp_proxf (f i) (V i)) (fun i => fp_proxf f' (W i));
  tp_prior : forall V W, tendv n V W -> tendr tends (fun i => fp_prior (f i) (V i)) (fun i => fp_prior f' (W i)) }.

Section Steps.
Variables (n m : nat) (f : I -> fl_problem) (f' : fl_problem) (l mu : R).
Hypothesis TP : tendp n m f f'.
Hypothesis Hl : l <> 0.

Lemma t_minus : forall k A B A' B', tendv k A A' -> tendv k B B' -> tendr (tendv k) (fun i => fzip (fsub (rnd i)) (A i) (B i)) (fun i => fzip (fsub Fin) (A' i) (B' i)).
Proof. intros k A B A' B' HA HB. apply (t_zip _ _ _ LI fsub); auto. intros. now apply (t_sub _ _ _ LI). Qed.
Lemma t_plus : forall k A B A' B', tendv k A A' -> tendv k B B' -> tendr (tendv k) (fun i => fzip (fadd (rnd i)) (A i) (B i)) (fun i => fzip (fadd Fin) (A' i) (B' i)).
Proof. intros k A B A' B' HA HB. apply (t_zip _ _ _ LI fadd); auto. intros. now apply (t_add _ _ _ LI). Qed.
Lemma t_overl : forall k A A', tendv k A A' -> tendv k (fun i => map (fun x => fneg (fdiv (rnd i) x (Fin l))) (A i)) (fun i => map (fun x => fneg (fdiv Fin x (Fin l))) (A' i)).
Proof.
  intros k A A' H. apply (t_map _ _ _ LI (fun i x => fneg (fdiv (rnd i) x (Fin l))) (fun _ x => fneg (fdiv Fin x (Fin l)))); auto.
  intros a a' Ha. apply (t_neg _ _ _ LI (fun i => fdiv (rnd i) (a i) (Fin l)) (fun i => fdiv Fin (a' i) (Fin l))).
  apply (t_div _ _ _ LI a (fun _ => Fin l) a' (fun _ => Fin l)); auto; [apply (tends_num _ _ _ LI)|now apply (apart_num _ _ _ LI)].
Qed.

Lemma t_gradlogpi : forall V W, tendv n V W -> tendr (tendv n) (fun i => f_gradlogpi (rnd i) (f i) (Fin l) (V i)) (fun i => f_gradlogpi Fin f' (Fin l) (W i)).
Proof.
  intros V W H. unfold f_gradlogpi. apply (tendr_bind _ _ _ LI (tendv n)); [now apply (tp_proxf _ _ _ _ TP)|]. intros P P' HP.
  apply (tendr_bind _ _ _ LI (tendv n)); [now apply t_minus|]. intros D D' HD.
  apply (tendr_bind _ _ _ LI (tendv m)); [now apply (tp_forward _ _ _ _ TP)|]. intros E E' HE.
  apply (tendr_bind _ _ _ LI (tendv n)); [now apply (tp_gradg _ _ _ _ TP)|]. intros Q Q' HQ.
  apply t_minus; [now apply t_overl|exact HQ].
Qed.

(** ** SKROCK *)
Section K.
Variable s : Z.
Variable d : R.
Hypothesis Hd : 0 < d.
Variable Dk : I -> float.
Hypothesis HDk : tends Dk (fun _ => Fin d).
Variables X X' Z Z' : I -> fvec.
Hypothesis HX : tendv n X X'.
Hypothesis HZ : tendv n Z Z'.
Lemma t_root : tends (fun i => fsqrt (rnd i) (fmul (rnd i) (Fin 2) (Dk i))) (fun _ => fsqrt Fin (fmul Fin (Fin 2) (Fin d))).
Proof.
  apply (t_sqrt _ _ _ LI (fun i => fmul (rnd i) (Fin 2) (Dk i)) (fun _ => fmul Fin (Fin 2) (Fin d)) (2 * d) ltac:(lra)).
  - apply (t_mul _ _ _ LI _ _ (fun _ => Fin 2) (fun _ => Fin d)); [apply (tends_num _ _ _ LI)|exact HDk].
  - apply (li_true _ _ _ LI). intros i x E. injection E as <-. lra.
Qed.
Lemma t_K : forall j, (forall k, (1 <= k <= j)%nat -> exists c, f_coef Fin s k = Ok c) ->
  tendr (tendv n) (fun i => f_K (rnd i) s (f i) (Fin l) (Dk i) (X i) j (Z i)) (fun i => f_K Fin s f' (Fin l) (Fin d) (X' i) j (Z' i)).
Proof.
  assert (TD := HDk). assert (TR := t_root).
  assert (Q : forall j, ((forall k, (1 <= k <= j)%nat -> exists c, f_coef Fin s k = Ok c) ->
      tendr (tendv n) (fun i => f_K (rnd i) s (f i) (Fin l) (Dk i) (X i) j (Z i)) (fun i => f_K Fin s f' (Fin l) (Fin d) (X' i) j (Z' i))) /\
    ((forall k, (1 <= k <= S j)%nat -> exists c, f_coef Fin s k = Ok c) ->
      tendr (tendv n) (fun i => f_K (rnd i) s (f i) (Fin l) (Dk i) (X i) (S j) (Z i)) (fun i => f_K Fin s f' (Fin l) (Fin d) (X' i) (S j) (Z' i)))); [|intros j; apply Q].
  induction j as [|j (I1 & I2)].
  - split; [intros _; now apply (tendr_ok _ _ _ LI)|]. intros C. destruct (C 1%nat ltac:(lia)) as (((a & b) & c) & EC). destruct (t_coef s 1 a b c EC) as (V & NV & Ta & Tb & Tc).
    set (y := fun (r : R -> float) dl nu x z => fzip (fadd r) x (fscal r (fmul r nu (fsqrt r (fmul r (Fin 2) dl))) z)).
    set (body := fun (r : R -> float) (dl : float) (g : fl_problem) (x z : fvec) (mu nu k : float) =>
      (let* y := y r dl nu x z in let* gr := f_gradlogpi r g (Fin l) y in
       let* u := fzip (fadd r) x (fscal r (fmul r mu dl) gr) in fzip (fadd r) u (fscal r (fmul r k (fsqrt r (fmul r (Fin 2) dl))) z))).
    apply (tendr_ext _ _ _ LI _ _ _ (fun i => body (rnd i) (Dk i) (f i) (X i) (Z i) (fst (fst (V i))) (snd (fst (V i))) (snd (V i))) (fun i => body Fin (Fin d) f' (X' i) (Z' i) a b c)).
    { apply (li_mono _ _ _ LI _ _) with (2 := NV). intros i Ei. cbn [f_K]. rewrite Ei, EC. cbn [rbind]. destruct (V i) as ((u & v) & w). split; reflexivity. }
    assert (NU : forall e e', tends e (fun _ => e') -> tendv n (fun i => fscal (rnd i) (fmul (rnd i) (e i) (fsqrt (rnd i) (fmul (rnd i) (Fin 2) (Dk i)))) (Z i))
              (fun i => fscal Fin (fmul Fin e' (fsqrt Fin (fmul Fin (Fin 2) (Fin d)))) (Z' i))).
    { intros e e' Te. apply (t_scal _ _ _ LI n _ (fun _ => fmul Fin e' (fsqrt Fin (fmul Fin (Fin 2) (Fin d))))); [|exact HZ]. apply (t_mul _ _ _ LI _ _ (fun _ => e') (fun _ => fsqrt Fin (fmul Fin (Fin 2) (Fin d)))); auto. }
    unfold body, y. apply (tendr_bind _ _ _ LI (tendv n)); [now apply t_plus; [|apply NU]|]. intros Y Y' HY.
    apply (tendr_bind _ _ _ LI (tendv n)); [now apply t_gradlogpi|]. intros Q Q' HQ.
    apply (tendr_bind _ _ _ LI (tendv n)).
    { apply t_plus; [exact HX|]. apply (t_scal _ _ _ LI n _ (fun _ => fmul Fin a (Fin d))); [|exact HQ]. apply (t_mul _ _ _ LI _ _ (fun _ => a) (fun _ => Fin d)); auto. }
    intros U U' HU. apply t_plus; [exact HU|]. now apply NU.
  - split; [exact I2|]. intros C. destruct (C (S (S j)) ltac:(lia)) as (((a & b) & c) & EC). destruct (t_coef s (S (S j)) a b c EC) as (V & NV & Ta & Tb & Tc).
    set (body := fun (r : R -> float) (dl : float) (g : fl_problem) (x z : fvec) (mu nu k : float) =>
      (let* K1 := f_K r s g (Fin l) dl x (S j) z in let* gr := f_gradlogpi r g (Fin l) K1 in
       let* u := fzip (fadd r) (fscal r (fmul r mu dl) gr) (fscal r nu K1) in
       let* K2 := f_K r s g (Fin l) dl x j z in
       fzip (fsub r) (map (fun x => fadd r x k) u) K2)).
    apply (tendr_ext _ _ _ LI _ _ _ (fun i => body (rnd i) (Dk i) (f i) (X i) (Z i) (fst (fst (V i))) (snd (fst (V i))) (snd (V i))) (fun i => body Fin (Fin d) f' (X' i) (Z' i) a b c)).
    { apply (li_mono _ _ _ LI _ _) with (2 := NV). intros i Ei. rewrite !K_eq. rewrite Ei, EC. cbn [rbind]. destruct (V i) as ((u & v) & w). split; reflexivity. }
    unfold body. apply (tendr_bind _ _ _ LI (tendv n)); [apply I2; intros k Hk; apply C; lia|]. intros K1 K1' HK1.
    apply (tendr_bind _ _ _ LI (tendv n)); [now apply t_gradlogpi|]. intros Q Q' HQ.
    apply (tendr_bind _ _ _ LI (tendv n)).
    { apply t_plus.
      - apply (t_scal _ _ _ LI n _ (fun _ => fmul Fin a (Fin d))); [|exact HQ]. apply (t_mul _ _ _ LI _ _ (fun _ => a) (fun _ => Fin d)); auto.
      - apply (t_scal _ _ _ LI n _ (fun _ => b)); auto. }
    intros U U' HU. apply (tendr_bind _ _ _ LI (tendv n)); [apply I1; intros k Hk; apply C; lia|]. intros K2 K2' HK2.
    apply t_minus; [|exact HK2]. apply (t_map _ _ _ LI (fun i x => fadd (rnd i) x (snd (V i))) (fun _ x => fadd Fin x c)); auto.
    intros e e' He. apply (t_add _ _ _ LI e (fun i => snd (V i)) e' (fun _ => c)); auto.
Qed.
End K.

(** ** MYULA and PxMALA: the step, the log posterior, the transition probability
    and the step size; step sizes of the exact side stay above [m0] *)
Variables (Dl Dl' : I -> float) (m0 : R).
Hypothesis HD : tends Dl Dl'.
Hypothesis Hm0 : 0 < m0.
Hypothesis LD : near (fun i => forall x, Dl' i = Fin x -> m0 <= x).

Lemma t_step : forall X X' P P' Q Q' Z Z', tendv n X X' -> tendv n P P' -> tendv n Q Q' -> tendv n Z Z' ->
  let step := fun (r : R -> float) (d : float) (x p q z : fvec) =>
    (let* c := py_fdiv r d (Fin l) in
     let* a := fzip (fadd r) (fscal r (fsub r (Fin 1) c) x) (fscal r c p) in
     let* b := fzip (fsub r) a (fscal r d q) in
     fzip (fadd r) b (fscal r (fsqrt r (fmul r (Fin 2) d)) z)) in
  tendr (tendv n) (fun i => step (rnd i) (Dl i) (X i) (P i) (Q i) (Z i)) (fun i => step Fin (Dl' i) (X' i) (P' i) (Q' i) (Z' i)).
Proof.
  intros X X' P P' Q Q' Z Z' HX HP HQ HZ step. unfold step.
  apply (tendr_bind _ _ _ LI tends). { apply (t_pydiv _ _ _ LI Dl (fun _ => Fin l) Dl' (fun _ => Fin l)); [exact HD|apply (tends_num _ _ _ LI)|now apply (apart_num _ _ _ LI)]. }
  intros c c' Hc. apply (tendr_bind _ _ _ LI (tendv n)).
  { apply t_plus; apply (t_scal _ _ _ LI); auto. apply (t_sub _ _ _ LI (fun _ => Fin 1) c (fun _ => Fin 1) c'); [apply (tends_num _ _ _ LI)|exact Hc]. }
  intros a a' Ha. apply (tendr_bind _ _ _ LI (tendv n)). { apply t_minus; [exact Ha|]. now apply (t_scal _ _ _ LI). }
  intros b b' Hb. apply t_plus; [exact Hb|]. apply (t_scal _ _ _ LI); [|exact HZ].
  apply (t_sqrt _ _ _ LI (fun i => fmul (rnd i) (Fin 2) (Dl i)) (fun i => fmul Fin (Fin 2) (Dl' i)) (2 * m0) ltac:(lra)).
  - apply (t_mul _ _ _ LI (fun _ => Fin 2) Dl (fun _ => Fin 2) Dl'); [apply (tends_num _ _ _ LI)|exact HD].
  - destruct HD as ((B & NB) & _). apply (both _ _ _ LD NB). intros i Hi (y & Ey & _) x E. rewrite Ey in E. cbn in E. injection E as <-. specialize (Hi y Ey). lra.
Qed.

Lemma t_dot : forall k A A' B B', tendv k A A' -> tendv k B B' -> tends (fun i => fdot (rnd i) (A i) (B i)) (fun i => fdot Fin (A' i) (B' i)).
Proof.
  intros k A A' B B' HA HB.
  destruct (t_zip _ _ _ LI fmul k A B A' B' HA HB (t_mul _ _ _ LI)) as (V & W & N & T). assert (S := t_sumv _ _ _ LI k V W T).
  apply (tends_ext _ _ _ LI _ _ (fun i => fsum (rnd i) (V i)) (fun i => fsum Fin (W i))); [|exact S].
  apply (li_mono _ _ _ LI _ _) with (2 := N). intros i (E1 & E2). unfold fdot. unfold fzip in E1, E2.
  destruct (Nat.eqb (length (A i)) (length (B i))); [|discriminate]. destruct (Nat.eqb (length (A' i)) (length (B' i))); [|discriminate].
  injection E1 as <-. injection E2 as <-. auto.
Qed.

Lemma t_logpi : forall X X' P P', tendv n X X' -> tendv m P P' ->
  tendr tend3 (fun i => f_logpi (rnd i) (f i) (Fin mu) (X i) (P i)) (fun i => f_logpi Fin f' (Fin mu) (X' i) (P' i)).
Proof.
  intros X X' P P' HX HP. unfold f_logpi.
  apply (tendr_bind _ _ _ LI (tendv m) _ (fun i => fzip (fsub (rnd i)) (fp_data (f i)) (P i)) (fun i => fzip (fsub Fin) (fp_data f') (P' i))); [apply t_minus; [apply (tp_data _ _ _ _ TP)|exact HP]|].
  intros D D' HDf. apply (tendr_bind _ _ _ LI (tendv m)); [now apply (tp_cov _ _ _ _ TP)|]. intros E E' HE.
  apply (tendr_bind _ _ _ LI tends).
  { apply (tendr_ext _ _ _ LI _ _ _ (fun i => Ok (fdot (rnd i) (D i) (E i))) (fun i => Ok (fdot Fin (D' i) (E' i)))).
    - apply (both _ _ _ (proj1 HDf) (proj1 HE)). intros i (L1 & L2) (L3 & L4). rewrite L1, L2, L3, L4, Nat.eqb_refl. auto.
    - apply (tendr_ok _ _ _ LI). now apply (t_dot m). }
  intros L L' HL2. apply (tendr_bind _ _ _ LI tends); [now apply (tp_prior _ _ _ _ TP)|]. intros p p' Hp.
  apply (tendr_ok _ _ _ LI). unfold tend3. cbn [fst snd]. split; [|auto].
  apply (t_sub _ _ _ LI (fun i => fmul (rnd i) (fneg (Fin mu)) (p i)) L (fun i => fmul Fin (fneg (Fin mu)) (p' i)) L'); [|exact HL2].
  apply (t_mul _ _ _ LI (fun _ => fneg (Fin mu)) p (fun _ => fneg (Fin mu)) p'); [apply (tends_num _ _ _ LI)|exact Hp].
Qed.

Lemma t_logtrans : forall X X' Y Y' P P' Q Q', tendv n X X' -> tendv n Y Y' -> tendv n P P' -> tendv n Q Q' ->
  tendr tends (fun i => f_logtrans (rnd i) (Fin l) (Dl i) (X i) (Y i) (P i) (Q i)) (fun i => f_logtrans Fin (Fin l) (Dl' i) (X' i) (Y' i) (P' i) (Q' i)).
Proof.
  intros X X' Y Y' P P' Q Q' HX HY HP HQ. unfold f_logtrans.
  apply (tendr_bind _ _ _ LI (tendv n)); [now apply t_minus|]. intros d d' Hd.
  apply (tendr_bind _ _ _ LI (tendv n)); [apply t_minus; [now apply t_overl|exact HQ]|]. intros g g' Hg.
  apply (tendr_bind _ _ _ LI (tendv n)); [now apply t_minus|]. intros e e' He.
  apply (tendr_bind _ _ _ LI (tendv n)).
  { apply t_minus; [exact He|]. apply (t_scal _ _ _ LI); [|exact Hg]. apply (t_div _ _ _ LI Dl (fun _ => Fin 2) Dl' (fun _ => Fin 2)); [exact HD|apply (tends_num _ _ _ LI)|apply (apart_num _ _ _ LI); lra]. }
  intros r r' Hr. apply (tendr_ok _ _ _ LI).
  assert (SQ : tends (fun i => fsum (rnd i) (map (fun x => fmul (rnd i) x x) (r i))) (fun i => fsum Fin (map (fun x => fmul Fin x x) (r' i)))).
  { apply (t_sumv _ _ _ LI n). apply (t_map _ _ _ LI (fun i x => fmul (rnd i) x x) (fun _ x => fmul Fin x x)); auto. intros. now apply (t_mul _ _ _ LI). }
  apply (t_mul _ _ _ LI (fun i => fneg (fmul (rnd i) (Fin (1 / 2)) (Dl i))) _ (fun i => fneg (fmul Fin (Fin (1 / 2)) (Dl' i)))).
  - apply (t_neg _ _ _ LI (fun i => fmul (rnd i) (Fin (1 / 2)) (Dl i)) (fun i => fmul Fin (Fin (1 / 2)) (Dl' i))).
    apply (t_mul _ _ _ LI (fun _ => Fin (1 / 2)) Dl (fun _ => Fin (1 / 2)) Dl'); [apply (tends_num _ _ _ LI)|exact HD].
  - now apply (t_mul _ _ _ LI).
Qed.

Lemma cont_max : continuous (fun _ a b => fmax a b) Rmax (fun _ _ => True).
Proof.
  constructor.
  - intros B. exists B. intros x y _ Hx Hy. unfold Rmax. destruct (Rle_dec x y); auto.
  - intros x y _. unfold fmax, Rmax. cbn. destruct (Rlt_dec x y), (Rle_dec x y); try lra; f_equal; lra.
  - intros B e He. exists e. split; [exact He|]. intros x y x' y' _ _ _ Hx Hy. split.
    + intros r. right. unfold fmax, Rmax. cbn. destruct (Rlt_dec x' y'), (Rle_dec x' y'); try lra; f_equal; lra.
    + apply Rabs_le_between in Hx, Hy. apply Rabs_le. unfold Rmax. destruct (Rle_dec x' y'), (Rle_dec x y); lra.
Qed.
Lemma cont_min : continuous (fun _ a b => fmin a b) Rmin (fun _ _ => True).
Proof.
  constructor.
  - intros B. exists B. intros x y _ Hx Hy. unfold Rmin. destruct (Rle_dec x y); auto.
  - intros x y _. unfold fmin, Rmin. cbn. destruct (Rlt_dec y x), (Rle_dec x y); try lra; f_equal; lra.
  - intros B e He. exists e. split; [exact He|]. intros x y x' y' _ _ _ Hx Hy. split.
    + intros r. right. unfold fmin, Rmin. cbn. destruct (Rlt_dec y' x'), (Rle_dec x' y'); try lra; f_equal; lra.
    + apply Rabs_le_between in Hx, Hy. apply Rabs_le. unfold Rmin. destruct (Rle_dec x' y'), (Rle_dec x y); lra.
Qed.
Lemma t_tuned : forall acc k, (0 <= k)%Z -> tends (fun i => f_tuned (rnd i) (Fin l) (Dl i) acc k) (fun i => f_tuned Fin (Fin l) (Dl' i) acc k).
Proof.
  intros acc k Hk. assert (PP : 0 < Rpower (IZR (k + 1)) (75 / 100)) by apply exp_pos. unfold f_tuned, flit. set (p := Rpower (IZR (k + 1)) (75 / 100)) in *.
  assert (NM := tends_num _ _ _ LI). assert (TR := t_rnd _ _ _ LI).
  apply (tends_op _ _ _ LI _ _ _ (fun i => fmax (fmul (rnd i) (Dl i) (fadd (rnd i) (Fin 1) (fdiv (rnd i) (fsub (rnd i) (Fin (IZR acc)) (Fin (1 / 2))) (rnd i p)))) (fmul (rnd i) (Fin l) (rnd i (1 / 100000000))))
    (fun i => fdiv (rnd i) (Fin l) (Fin 2))
    (fun i => fmax (fmul Fin (Dl' i) (fadd Fin (Fin 1) (fdiv Fin (fsub Fin (Fin (IZR acc)) (Fin (1 / 2))) (Fin p)))) (fmul Fin (Fin l) (Fin (1 / 100000000))))
    (fun _ => fdiv Fin (Fin l) (Fin 2)) cont_min); [| |apply (t_all _ _ _ LI)].
  - apply (tends_op _ _ _ LI _ _ _ _ (fun i => fmul (rnd i) (Fin l) (rnd i (1 / 100000000))) _ (fun i => fmul Fin (Fin l) (Fin (1 / 100000000))) cont_max); [| |apply (t_all _ _ _ LI)].
    + apply (t_mul _ _ _ LI Dl _ Dl' (fun _ => fadd Fin (Fin 1) (fdiv Fin (fsub Fin (Fin (IZR acc)) (Fin (1 / 2))) (Fin p)))); [exact HD|].
      apply (t_add _ _ _ LI (fun _ => Fin 1) _ (fun _ => Fin 1) (fun _ => fdiv Fin (fsub Fin (Fin (IZR acc)) (Fin (1 / 2))) (Fin p))); [apply NM|].
      apply (t_div _ _ _ LI _ _ (fun _ => fsub Fin (Fin (IZR acc)) (Fin (1 / 2))) (fun _ => Fin p)); [|apply TR|apply (apart_num _ _ _ LI); lra].
      apply (t_sub _ _ _ LI (fun _ => Fin (IZR acc)) (fun _ => Fin (1 / 2)) (fun _ => Fin (IZR acc)) (fun _ => Fin (1 / 2))); apply NM.
    + apply (t_mul _ _ _ LI (fun _ => Fin l) _ (fun _ => Fin l) (fun _ => Fin (1 / 100000000))); [apply NM|apply TR].
  - apply (t_div _ _ _ LI (fun _ => Fin l) (fun _ => Fin 2) (fun _ => Fin l) (fun _ => Fin 2)); [apply NM|apply NM|apply (apart_num _ _ _ LI); lra].
Qed.
End Steps.

(** the logarithm of a draw *)
Lemma t_lograndom : forall u, 0 < u -> tends (fun i => fln (rnd i) (Fin u)) (fun _ => fln Fin (Fin u)).
Proof.
  intros u Hu. cbn [fln]. destruct (total_order_T u 0) as [[?|?]|?]; try lra. apply (t_rnd _ _ _ LI).
Qed.
(** comparisons that are not ties have the same outcome *)
Lemma t_ltb : forall a b a' b', tends a (fun _ => Fin a') -> tends b (fun _ => Fin b') -> a' <> b' -> near (fun i => fltb (a i) (b i) = fltb (Fin a') (Fin b')).
Proof.
  intros a b a' b' (_ & Ta) (_ & Tb) NE. assert (H : 0 < Rabs (a' - b') / 4) by (assert (0 < Rabs (a' - b')) by (apply Rabs_pos_lt; lra); lra).
  apply (both _ _ _ (Ta _ H) (Tb _ H)). intros i (x & y & E1 & -> & H1) (x2 & y2 & E2 & -> & H2). injection E1 as <-. injection E2 as <-.
  unfold Rabs in H1 at 2. unfold Rabs in H2 at 2. cbn. destruct (Rcase_abs (a' - b')); apply Rabs_le_between in H1; apply Rabs_le_between in H2; destruct (Rlt_dec y y2), (Rlt_dec a' b'); try lra; reflexivity.
Qed.

(** ** the path problem *)
Section Paths.
Variables (n : nat) (W : list (list (nat * R))) (ys sig : list R) (t : R).
Hypothesis LY : length ys = length W.
Hypothesis LS : length sig = length W.
Hypothesis NZ : forall s, In s sig -> s <> 0.
Hypothesis Ht : 0 <= t.

Lemma t_nth0 : forall k A A' j, tendv k A A' -> tends (fun i => nth j (A i) (Fin 0)) (fun i => nth j (A' i) (Fin 0)).
Proof.
  intros k A A' j (L & H). destruct (Nat.lt_ge_cases j k) as [J|J].
  - apply (tends_ext _ _ _ LI _ _ (fun i => nth j (A i) NaN) (fun i => nth j (A' i) NaN)); [|now apply H].
    apply (li_mono _ _ _ LI _ _) with (2 := L). intros i (L1 & L2). split; apply nth_indep; lia.
  - apply (tends_ext _ _ _ LI _ _ (fun _ => Fin 0) (fun _ => Fin 0)); [|apply (tends_num _ _ _ LI)].
    apply (li_mono _ _ _ LI _ _) with (2 := L). intros i (L1 & L2). split; apply nth_overflow; lia.
Qed.
Lemma t_row : forall k (r : list (nat * R)) A A', tendv k A A' -> tends (fun i => fspdot (rnd i) (frow r) (A i)) (fun i => fspdot Fin (frow r) (A' i)).
Proof.
  intros k r A A' H.
  apply (tends_ext _ _ _ LI _ _ (fun i => fsum (rnd i) (map (fun v : I -> float => v i) (map (fun (p : nat * R) i => fmul (rnd i) (Fin (snd p)) (nth (fst p) (A i) (Fin 0))) r)))
    (fun i => fsum Fin (map (fun v : I -> float => v i) (map (fun (p : nat * R) i => fmul Fin (Fin (snd p)) (nth (fst p) (A' i) (Fin 0))) r)))).
  - apply (li_true _ _ _ LI). intros i. unfold fspdot, frow. rewrite !map_map. split; reflexivity.
  - apply (t_sum _ _ _ LI). induction r as [|p r IH]; constructor; [|exact IH].
    apply (t_mul _ _ _ LI (fun _ => Fin (snd p)) (fun i => nth (fst p) (A i) (Fin 0)) (fun _ => Fin (snd p)) (fun i => nth (fst p) (A' i) (Fin 0))); [apply (tends_num _ _ _ LI)|now apply (t_nth0 k)].
Qed.
(** a vector whose entries are computed one by one *)
Lemma tendv_map : forall {A} (l : list A) (h : I -> A -> float) h', (forall a, In a l -> tends (fun i => h i a) (fun i => h' i a)) ->
  tendv (length l) (fun i => map (h i) l) (fun i => map (h' i) l).
Proof.
  intros A l h h' H. split; [apply (li_true _ _ _ LI); intros; now rewrite !map_length|]. intros k Hk.
  destruct l as [|a0 l]; [cbn in Hk; lia|]. set (L := a0 :: l) in *.
  apply (tends_ext _ _ _ LI _ _ (fun i => h i (nth k L a0)) (fun i => h' i (nth k L a0))); [|apply H; now apply nth_In].
  assert (Q : forall o : A -> float, nth k (map o L) NaN = o (nth k L a0)) by (intros o; rewrite (nth_indep _ NaN (o a0)) by (rewrite map_length; exact Hk); apply map_nth).
  apply (li_true _ _ _ LI). intros i. split; apply Q.
Qed.
Lemma t_rows : forall k (U : list (list (nat * R))) A A', tendv k A A' ->
  tendv (length U) (fun i => map (fun r => fspdot (rnd i) r (A i)) (frows U)) (fun i => map (fun r => fspdot Fin r (A' i)) (frows U)).
Proof.
  intros k U A A' H. apply (tendv_ext _ _ _ LI _ _ _ (fun i => map (fun r => fspdot (rnd i) (frow r) (A i)) U) (fun i => map (fun r => fspdot Fin (frow r) (A' i)) U)).
  - apply (li_true _ _ _ LI). intros i. unfold frows. rewrite !map_map. auto.
  - apply (tendv_map U (fun i r => fspdot (rnd i) (frow r) (A i)) (fun i r => fspdot Fin (frow r) (A' i))). intros r _. now apply (t_row k).
Qed.
Lemma t_weights : tendv (length W) (fun i => f_weights (rnd i) (map Fin sig)) (fun _ => f_weights Fin (map Fin sig)).
Proof.
  rewrite <- LS. apply (tendv_ext _ _ _ LI _ _ _ (fun i => map (fun s => fdiv (rnd i) (Fin 1) (fmul (rnd i) (Fin s) (Fin s))) sig) (fun i => map (fun s => fdiv Fin (Fin 1) (fmul Fin (Fin s) (Fin s))) sig)).
  - apply (li_true _ _ _ LI). intros i. unfold f_weights. rewrite !map_map. auto.
  - apply (tendv_map sig (fun i s => fdiv (rnd i) (Fin 1) (fmul (rnd i) (Fin s) (Fin s))) (fun _ s => fdiv Fin (Fin 1) (fmul Fin (Fin s) (Fin s)))). intros s Hs. specialize (NZ s Hs).
    apply (t_div _ _ _ LI (fun _ => Fin 1) _ (fun _ => Fin 1) (fun _ => fmul Fin (Fin s) (Fin s))); [apply (tends_num _ _ _ LI)| |].
    + apply (t_mul _ _ _ LI (fun _ => Fin s) (fun _ => Fin s) (fun _ => Fin s) (fun _ => Fin s)); apply (tends_num _ _ _ LI).
    + apply (apart_num _ _ _ LI). nra.
Qed.
Lemma rsoft_lip : forall x y, Rabs (rsoft t x - rsoft t y) <= Rabs (x - y).
Proof.
  intros x y. unfold rsoft, rsgn. destruct (Rle_dec (Rabs x) t), (Rle_dec (Rabs y) t); unfold Rabs in *; repeat destruct (Rcase_abs _); repeat destruct (Rlt_dec _ _); lra.
Qed.
Lemma t_soft : forall a a', tends a a' -> tends (fun i => f_soft1 (rnd i) (Fin t) (a i)) (fun i => f_soft1 Fin (Fin t) (a' i)).
Proof.
  intros a a' ((B & HB) & H). split.
  - exists (2 * B + t). apply (li_mono _ _ _ LI _ _) with (2 := HB). intros i (x & -> & Hx). exists (rsoft t x). split; [apply soft1_fin|].
    assert (L := rsoft_lip x 0). rewrite Rminus_0_r in L. unfold rsoft in L at 2. rewrite Rabs_R0 in L. destruct (Rle_dec 0 t); [|lra]. rewrite Rminus_0_r in L. assert (0 <= Rabs x) by apply Rabs_pos. lra.
  - intros e He. set (C := Rmax B 0 + 1). assert (C0 : 1 <= C) by (unfold C; assert (0 <= Rmax B 0) by apply Rmax_r; lra).
    set (e1 := Rmin 1 (e / (2 * (C + 3)))). assert (E1 : 0 < e1). { unfold e1. apply Rmin_glb_lt; [lra|]. apply Rdiv_lt_0_compat; lra. }
    assert (E2 : e1 * (C + 3) <= e / 2). { assert (e1 <= e / (2 * (C + 3))) by apply Rmin_r. replace (e / 2) with (e / (2 * (C + 3)) * (C + 3)) by (field; lra). apply Rmult_le_compat_r; lra. }
    assert (E3 : e1 <= 1) by apply Rmin_l.
    apply (both _ _ _ (li_and _ _ _ LI _ _ HB (H (Rmin 1 (e / 2)) ltac:(apply Rmin_glb_lt; lra))) (li_acc _ _ _ LI (2 * C + 2) e1 E1)).
    intros i ((x & Ex & Bx) & (x2 & y & Ex2 & Ey & Hxy)) AC. rewrite Ex in Ex2. injection Ex2 as <-. rewrite Ex, Ey, soft1_fin.
    assert (H1 : Rabs (y - x) <= 1) by (eapply Rle_trans; [exact Hxy|apply Rmin_l]). assert (H2 : Rabs (y - x) <= e / 2) by (eapply Rle_trans; [exact Hxy|apply Rmin_r]).
    assert (By : Rabs y <= C). { replace y with (x + (y - x)) by ring. eapply Rle_trans; [apply Rabs_triang|]. unfold C. assert (B <= Rmax B 0) by apply Rmax_l. lra. }
    destruct (near_soft1 (rnd i) (2 * C + 2) e1 AC E3 C t y Ht By ltac:(lra)) as (z & Ez & _ & Nz). exists (rsoft t x), z. split; [reflexivity|]. split; [exact Ez|].
    assert (L := rsoft_lip y x). replace (z - rsoft t x) with ((z - rsoft t y) + (rsoft t y - rsoft t x)) by ring. eapply Rle_trans; [apply Rabs_triang|]. lra.
Qed.
Lemma t_weigh1 : forall a b a' b', tends a a' -> tends b b' ->
  tends (fun i => if fzerob (a i) || fzerob (b i) then Fin 0 else fadd (rnd i) (Fin 0) (fmul (rnd i) (a i) (b i)))
        (fun i => if fzerob (a' i) || fzerob (b' i) then Fin 0 else fadd Fin (Fin 0) (fmul Fin (a' i) (b' i))).
Proof.
  intros a b a' b' Ha Hb.
  assert (TM : tends (fun i => fadd (rnd i) (Fin 0) (fmul (rnd i) (a i) (b i))) (fun i => fadd Fin (Fin 0) (fmul Fin (a' i) (b' i)))).
  { apply (t_add _ _ _ LI (fun _ => Fin 0) _ (fun _ => Fin 0)); [apply (tends_num _ _ _ LI)|now apply (t_mul _ _ _ LI)]. }
  destruct Ha as ((Ba & Na) & Ha). destruct Hb as ((Bb & Nb) & Hb).
  assert (ZP : forall x y, orb (fzerob (Fin x)) (fzerob (Fin y)) = true -> x * y = 0).
  { intros x y E. apply orb_prop in E. cbn in E. destruct (Req_EM_T x 0) as [->|]; [ring|]. destruct (Req_EM_T y 0) as [->|]; [ring|]. destruct E; discriminate. }
  assert (EX : near (fun i => (if fzerob (a' i) || fzerob (b' i) then Fin 0 else fadd Fin (Fin 0) (fmul Fin (a' i) (b' i))) = fadd Fin (Fin 0) (fmul Fin (a' i) (b' i)))).
  { apply (both _ _ _ Na Nb). intros i (x & -> & _) (y & -> & _). destruct (fzerob (Fin x) || fzerob (Fin y))%bool eqn:E; [|reflexivity]. cbn. rewrite (ZP _ _ E), Rplus_0_l. reflexivity. }
  destruct TM as ((B & NB) & TM). split.
  - exists B. apply (both _ _ _ EX NB). intros i -> H. exact H.
  - intros e He. assert (Pm : 0 < e) by exact He.
    (* the products of the values before rounding *)
    assert (TP : near (fun i => forall x y u v, a' i = Fin x -> b' i = Fin y -> a i = Fin u -> b i = Fin v -> Rabs (u * v - x * y) <= e)).
    { set (M := Rmax 1 (Rmax Ba Bb)). assert (M1 : 1 <= M) by apply Rmax_l. assert (MA : Ba <= M) by (unfold M; eapply Rle_trans; [|apply Rmax_r]; apply Rmax_l). assert (MB : Bb <= M) by (unfold M; eapply Rle_trans; [|apply Rmax_r]; apply Rmax_r).
      set (d := Rmin 1 (e / (3 * M))). assert (D0 : 0 < d) by (apply Rmin_glb_lt; [lra|]; apply Rdiv_lt_0_compat; lra). assert (D1 : d <= 1) by apply Rmin_l.
      assert (D2 : d * (3 * M) <= e). { assert (d <= e / (3 * M)) by apply Rmin_r. eapply Rle_trans; [apply Rmult_le_compat_r; [|exact H]; lra|]. right. field. lra. }
      apply (both _ _ _ (li_and _ _ _ LI _ _ Na Nb) (li_and _ _ _ LI _ _ (Ha d D0) (Hb d D0))).
      intros i ((x & Ex & Bx) & (y & Ey & By)) ((x1 & u & Ex1 & Eu & Hu) & (y1 & v & Ey1 & Ev & Hv)) x2 y2 u2 v2 F1 F2 F3 F4.
      replace x2 with x in * by congruence. replace y2 with y in * by congruence. replace u2 with u in * by congruence. replace v2 with v in * by congruence.
      replace x1 with x in * by congruence. replace y1 with y in * by congruence.
      replace (u * v - x * y) with ((u - x) * (v - y) + x * (v - y) + (u - x) * y) by ring.
      eapply Rle_trans; [apply Rabs_triang|]. eapply Rle_trans; [apply Rplus_le_compat_r, Rabs_triang|]. rewrite !Rabs_mult.
      assert (A1 : Rabs (u - x) * Rabs (v - y) <= d * 1) by (apply Rmult_le_compat; auto using Rabs_pos; lra).
      assert (A2 : Rabs x * Rabs (v - y) <= M * d) by (apply Rmult_le_compat; auto using Rabs_pos; lra).
      assert (A3 : Rabs (u - x) * Rabs y <= d * M) by (apply Rmult_le_compat; auto using Rabs_pos; lra). nra. }
    apply (both _ _ _ (li_and _ _ _ LI _ _ EX (li_and _ _ _ LI _ _ (Ha 1 Rlt_0_1) (Hb 1 Rlt_0_1))) (li_and _ _ _ LI _ _ TP (TM e He))).
    intros i (-> & ((x & u & Ex & Eu & _) & (y & v & Ey & Ev & _))) (P & x3 & y3 & E3 & E4 & H3). exists x3.
    destruct (fzerob (a i) || fzerob (b i))%bool eqn:EZ.
    + exists 0. split; [exact E3|]. split; [reflexivity|]. rewrite Eu, Ev in EZ. assert (Z := ZP _ _ EZ). specialize (P x y u v Ex Ey Eu Ev).
      rewrite Ex, Ey in E3. cbn in E3. injection E3 as <-. rewrite Rplus_0_l, <- Z. exact P.
    + exists y3. auto.
Qed.

Lemma t_weigh : forall k A B A' B', tendv k A A' -> tendv k B B' -> tendr (tendv k) (fun i => f_weigh (rnd i) (A i) (B i)) (fun i => f_weigh Fin (A' i) (B' i)).
Proof.
  intros k A B A' B' HA HB. unfold f_weigh.
  apply (t_zip _ _ _ LI (fun r w d => if (fzerob w || fzerob d)%bool then Fin 0 else fadd r (Fin 0) (fmul r w d))); auto. intros. now apply t_weigh1.
Qed.
Lemma t_diag : forall k ws ws' V V', tendv k ws ws' -> tendv k V V' ->
  tendr (tendv k) (fun i => f_matvec (rnd i) (map (fun p => [p]) (combine (seq 0 (length (ws i))) (ws i))) (V i))
    (fun i => f_matvec Fin (map (fun p => [p]) (combine (seq 0 (length (ws' i))) (ws' i))) (V' i)).
Proof.
  intros k ws ws' V V' Hw HV.
  set (D := fun (r : R -> float) (w v : fvec) => map (fun j => fadd r (Fin 0) (fmul r (nth j w NaN) (nth j v (Fin 0)))) (seq 0 k)).
  assert (EQ : forall r w v, length w = k -> length v = k -> f_matvec r (map (fun p => [p]) (combine (seq 0 (length w)) w)) v = Ok (D r w v)).
  { intros r w v L1 L2. unfold f_matvec. rewrite map_length, combine_length, seq_length, L1, L2, Nat.min_id, Nat.eqb_refl. f_equal. unfold D. rewrite map_map.
    assert (C : combine (seq 0 k) w = map (fun j => (j, nth j w NaN)) (seq 0 k)).
    { rewrite (entries k w L1) at 1. clear. generalize (seq 0 k). induction l as [|a l IH]; [reflexivity|]. cbn. now rewrite IH. }
    rewrite C, map_map. apply map_ext. intros j. reflexivity. }
  apply (tendr_ext _ _ _ LI _ _ _ (fun i => Ok (D (rnd i) (ws i) (V i))) (fun i => Ok (D Fin (ws' i) (V' i)))).
  - apply (both _ _ _ (proj1 Hw) (proj1 HV)). intros i (L1 & L2) (L3 & L4). split; apply EQ; auto.
  - apply (tendr_ok _ _ _ LI). rewrite <- (seq_length k 0) at 1.
    apply (tendv_map (seq 0 k) (fun i j => fadd (rnd i) (Fin 0) (fmul (rnd i) (nth j (ws i) NaN) (nth j (V i) (Fin 0)))) (fun i j => fadd Fin (Fin 0) (fmul Fin (nth j (ws' i) NaN) (nth j (V' i) (Fin 0))))).
    intros j Hj. apply in_seq in Hj. apply (t_add _ _ _ LI (fun _ => Fin 0) _ (fun _ => Fin 0)); [apply (tends_num _ _ _ LI)|].
    apply (t_mul _ _ _ LI); [apply Hw; lia|now apply (t_nth0 k)].
Qed.

Lemma paths_tend : tendp n (length W) (fun i => f_paths (rnd i) n (frows W) (map Fin ys) (f_weights (rnd i) (map Fin sig)) (FScal (Fin t)))
  (f_paths Fin n (frows W) (map Fin ys) (f_weights Fin (map Fin sig)) (FScal (Fin t))).
Proof.
  assert (LF : length (frows W) = length W) by (unfold frows; apply map_length).
  assert (PF : forall k U N V V', tendv k V V' -> N = length U -> forall c, tendr (tendv N) (fun i => if Nat.eqb (length (V i)) k then Ok (map (fun r => fspdot (rnd i) r (V i)) (frows U)) else Raise c)
    (fun i => if Nat.eqb (length (V' i)) k then Ok (map (fun r => fspdot Fin r (V' i)) (frows U)) else Raise c)).
  { intros k U N V V' H -> c. apply (tendr_ext _ _ _ LI _ _ _ (fun i => Ok (map (fun r => fspdot (rnd i) r (V i)) (frows U))) (fun i => Ok (map (fun r => fspdot Fin r (V' i)) (frows U)))).
    - apply (li_mono _ _ _ LI _ _) with (2 := proj1 H). intros i (-> & ->). now rewrite Nat.eqb_refl.
    - apply (tendr_ok _ _ _ LI). now apply (t_rows k). }
  assert (TD : tendv (length W) (fun _ => map Fin ys) (fun _ => map Fin ys)).
  { rewrite <- LY. apply (tendv_map ys (fun _ => Fin) (fun _ => Fin)). intros. apply (tends_num _ _ _ LI). }
  constructor; cbn [fp_nparams fp_data fp_invcov fp_forward fp_gradg fp_proxf fp_prior f_paths]; auto.
  - intros V V' H. apply (t_diag (length W) (fun i => f_weights (rnd i) (map Fin sig)) (fun _ => f_weights Fin (map Fin sig))); [apply t_weights|exact H].
  - intros V V' H. unfold f_path_forward. now apply (PF n W).
  - intros V V' H. unfold f_gradg.
    apply (tendr_bind _ _ _ LI (tendv (length W)) _ (fun i => fzip (fsub (rnd i)) (V i) (map Fin ys)) (fun i => fzip (fsub Fin) (V' i) (map Fin ys))); [now apply t_minus|].
    intros D D' HD. apply (tendr_bind _ _ _ LI (tendv (length W)) _ (fun i => f_weigh (rnd i) (f_weights (rnd i) (map Fin sig)) (D i)) (fun i => f_weigh Fin (f_weights Fin (map Fin sig)) (D' i))).
    { apply t_weigh; [apply t_weights|exact HD]. }
    intros E E' HE. unfold f_path_adjoint. rewrite frows_adj, LF. apply (PF (length W) (adj n W) n E E' HE). now rewrite adj_length.
  - intros V V' H. cbn [f_soft]. apply (tendr_ok _ _ _ LI). apply (t_map _ _ _ LI (fun i => f_soft1 (rnd i) (Fin t)) (fun _ => f_soft1 Fin (Fin t))); auto using t_soft.
  - intros V V' H. apply (tendr_ok _ _ _ LI). unfold f_l1. apply (t_sumv _ _ _ LI n).
    apply (t_map _ _ _ LI (fun _ => fabs) (fun _ => fabs)); auto. intros. now apply (t_abs _ _ _ LI).
Qed.
End Paths.
End Prog.
