(** Complex vectors and matrices as numpy sees them, and their algebra.

    A 1-D array is the list of its entries, in [C]; a float array is one whose
    entries have imaginary part 0.  Arithmetic is exact (no rounding, no NaN).
    Nothing here is specific to pxmcmc. *)
From Coq Require Import List ZArith Lia Bool Reals Lra Psatz.
From Coquelicot Require Import Coquelicot.
From Verif Require Import PyBase.
Import ListNotations.
Open Scope R_scope.

Notation vec := (list C).

(** ** Definitions *)

(** [x.sum()], [sum(x)] *)
Definition csum (l : vec) : C := fold_right Cplus (RtoC 0) l.
Definition rsum (l : list R) : R := fold_right Rplus 0 l.

(** [np.vdot(x, y)] for arrays of equal size: the first argument is conjugated. *)
Definition cdot (x y : vec) : C := csum (map2 (fun a b => Cconj a * b)%C x y).
Definition np_vdot (x y : vec) : res C :=
  if Nat.eqb (length x) (length y) then Ok (cdot x y) else Raise ValueError.

(** elementwise arithmetic on two arrays, numpy broadcasting of length 1 *)
Definition np_add : vec -> vec -> res vec := np_bin Cplus.
Definition np_sub : vec -> vec -> res vec := np_bin Cminus.
Definition np_mul : vec -> vec -> res vec := np_bin Cmult.
Definition np_div : vec -> vec -> res vec := np_bin Cdiv.
(** scalar times array *)
Definition vscal (c : C) (x : vec) : vec := map (Cmult c) x.
(** scalar plus array *)
Definition vshift (c : C) (x : vec) : vec := map (fun a => a + c)%C x.
(** [np.abs(x)] *)
Definition vabs (x : vec) : list R := map Cmod x.

(** mathematical (equal length) addition and subtraction *)
Definition vadd (x y : vec) : vec := map2 Cplus x y.
Definition vsub (x y : vec) : vec := map2 Cminus x y.
Definition vopp (x : vec) : vec := map Copp x.
Definition vzero (n : nat) : vec := repeat (RtoC 0) n.
(** squared Euclidean norm and l1 norm *)
Definition nrm2 (x : vec) : R := rsum (map (fun z => (Cmod z) ^ 2) x).
Definition l1norm (x : vec) : R := rsum (map Cmod x).

(** a dense or sparse matrix: shape and entries *)
Record cmat := mkMat { m_rows : nat; m_cols : nat; m_ent : nat -> nat -> C }.
(** [A @ x], [A.dot(x)] on a 1-D array; ValueError on a dimension mismatch *)
Definition matvec (A : cmat) (x : vec) : vec :=
  map (fun i => csum (map (fun j => m_ent A i j * nth j x (RtoC 0))%C (seq 0 (m_cols A))))
      (seq 0 (m_rows A)).
Definition np_dot (A : cmat) (x : vec) : res vec :=
  if Nat.eqb (length x) (m_cols A) then Ok (matvec A x) else Raise ValueError.
(** [A.getH()]: conjugate transpose *)
Definition getH (A : cmat) : cmat :=
  mkMat (m_cols A) (m_rows A) (fun i j => Cconj (m_ent A j i)).
(** [sparse.eye(m, n)]: ones on the main diagonal *)
Definition eye (m n : nat) : cmat :=
  mkMat m n (fun i j => if Nat.eqb i j then RtoC 1 else RtoC 0).
(** [sparse.diags(d)]: the square matrix with diagonal d *)
Definition diags (d : vec) : cmat :=
  mkMat (length d) (length d)
        (fun i j => if Nat.eqb i j then nth i d (RtoC 0) else RtoC 0).
(** [sparse.identity(n).dot(c)] *)
Definition scaled_identity (n : nat) (c : C) : cmat :=
  mkMat n n (fun i j => if Nat.eqb i j then c else RtoC 0).

(** ** Complex numbers *)

Lemma C_ext : forall a b : C, fst a = fst b -> snd a = snd b -> a = b.
Proof. intros [a b] [c d]; simpl; intros; subst; reflexivity. Qed.

Ltac cplx := apply C_ext; unfold Cdiv, Cminus, Cplus, Cmult, Copp, Cconj, RtoC; simpl; try ring.

Lemma Cconj_plus : forall a b, Cconj (a + b)%C = (Cconj a + Cconj b)%C.
Proof. intros; cplx. Qed.
Lemma Cconj_opp : forall a, Cconj (- a)%C = (- Cconj a)%C.
Proof. intros; cplx. Qed.
Lemma Cconj_minus : forall a b, Cconj (a - b)%C = (Cconj a - Cconj b)%C.
Proof. intros; cplx. Qed.
Lemma Cconj_mult : forall a b, Cconj (a * b)%C = (Cconj a * Cconj b)%C.
Proof. intros; cplx. Qed.
Lemma Cconj_invol : forall a, Cconj (Cconj a) = a.
Proof. intros; cplx. Qed.
Lemma Cconj_R : forall r : R, Cconj (RtoC r) = RtoC r.
Proof. intros; cplx. Qed.
Lemma Cmod_conj : forall a, Cmod (Cconj a) = Cmod a.
Proof. intros [a b]; unfold Cmod, Cconj; simpl; f_equal; ring. Qed.

Lemma Cmod_sq : forall z, (Cmod z) ^ 2 = fst z ^ 2 + snd z ^ 2.
Proof.
  intros z; unfold Cmod. rewrite <- Rsqr_pow2, Rsqr_sqrt; [ring|].
  generalize (pow2_ge_0 (fst z)) (pow2_ge_0 (snd z)); lra.
Qed.
Lemma Cconj_mult_self : forall z, (Cconj z * z)%C = RtoC ((Cmod z) ^ 2).
Proof. intros z; rewrite Cmod_sq; cplx. Qed.

Lemma Re_le_Cmod : forall z, Re z <= Cmod z.
Proof.
  intros [a b]; unfold Re; simpl.
  apply Rle_trans with (Rabs a); [apply Rle_abs|].
  eapply Rle_trans; [|apply (Rmax_Cmod (a, b))]. apply Rmax_l.
Qed.
Lemma Rabs_Re_le_Cmod : forall z, Rabs (Re z) <= Cmod z.
Proof. intros z; eapply Rle_trans; [|apply Rmax_Cmod]. apply Rmax_l. Qed.

Lemma Re_plus : forall a b, Re (a + b)%C = Re a + Re b. Proof. reflexivity. Qed.
Lemma Im_plus : forall a b, Im (a + b)%C = Im a + Im b. Proof. reflexivity. Qed.
Lemma Re_minus : forall a b, Re (a - b)%C = Re a - Re b. Proof. reflexivity. Qed.
Lemma Re_opp : forall a, Re (- a)%C = - Re a. Proof. reflexivity. Qed.
Lemma Re_conj : forall a, Re (Cconj a) = Re a. Proof. reflexivity. Qed.
Lemma Re_RtoC : forall r, Re (RtoC r) = r. Proof. reflexivity. Qed.
Lemma Re_scal : forall (r : R) z, Re (RtoC r * z)%C = r * Re z.
Proof. intros; unfold Re; simpl; ring. Qed.

(** Euclidean inner product of C as R^2 *)
Lemma Re_conj_mult_le : forall a b, Re (Cconj a * b)%C <= Cmod a * Cmod b.
Proof. intros; rewrite <- (Cmod_conj a), <- Cmod_mult; apply Re_le_Cmod. Qed.

(** ** map2 *)

Lemma map2_length : forall {A B D} (f : A -> B -> D) l m,
  length l = length m -> length (map2 f l m) = length l.
Proof. induction l; destruct m; simpl; intros; try lia. rewrite IHl; lia. Qed.
Lemma map2_length_min : forall {A B D} (f : A -> B -> D) l m,
  length (map2 f l m) = Nat.min (length l) (length m).
Proof. induction l; destruct m; simpl; intros; try lia. rewrite IHl; lia. Qed.
Lemma map2_map_l : forall {A A' B D} (f : A' -> B -> D) (g : A -> A') l m,
  map2 f (map g l) m = map2 (fun a b => f (g a) b) l m.
Proof. induction l; destruct m; simpl; congruence. Qed.
Lemma map2_map_r : forall {A B B' D} (f : A -> B' -> D) (g : B -> B') l m,
  map2 f l (map g m) = map2 (fun a b => f a (g b)) l m.
Proof. induction l; destruct m; simpl; congruence. Qed.
Lemma map_map2 : forall {A B D E} (g : D -> E) (f : A -> B -> D) l m,
  map g (map2 f l m) = map2 (fun a b => g (f a b)) l m.
Proof. induction l; destruct m; simpl; congruence. Qed.
Lemma map2_diag : forall {A B} (f : A -> A -> B) l, map2 f l l = map (fun a => f a a) l.
Proof. induction l; simpl; congruence. Qed.
Lemma map2_ext : forall {A B D} (f g : A -> B -> D) l m,
  (forall a b, f a b = g a b) -> map2 f l m = map2 g l m.
Proof. induction l; destruct m; simpl; intros; f_equal; auto. Qed.
Lemma map2_flip : forall {A B D} (f : A -> B -> D) l m,
  map2 f l m = map2 (fun b a => f a b) m l.
Proof. induction l; destruct m; simpl; congruence. Qed.
Lemma map2_map_same : forall {A B B' D} (f : B -> B' -> D) (g : A -> B) (h : A -> B') l,
  map2 f (map g l) (map h l) = map (fun a => f (g a) (h a)) l.
Proof. induction l; simpl; congruence. Qed.
Lemma nth_map2 : forall {A B D} (f : A -> B -> D) l m i a b d,
  (i < length l)%nat -> length l = length m -> nth i (map2 f l m) d = f (nth i l a) (nth i m b).
Proof.
  induction l; destruct m; simpl; intros; try lia.
  destruct i; simpl; auto. apply IHl; lia.
Qed.
Lemma nth_map_in : forall {A B} (f : A -> B) l i d d', (i < length l)%nat ->
  nth i (map f l) d = f (nth i l d').
Proof. induction l; simpl; intros; [lia|]. destruct i; auto. apply IHl; lia. Qed.
Lemma map2_app : forall {A B D} (f : A -> B -> D) l l' m m', length l = length m ->
  map2 f (l ++ l') (m ++ m') = map2 f l m ++ map2 f l' m'.
Proof. induction l; destruct m; simpl; intros; try lia; auto. f_equal; apply IHl; lia. Qed.

Lemma np_bin_same : forall {A B D} (f : A -> B -> D) l m,
  length l = length m -> np_bin f l m = Ok (map2 f l m).
Proof. intros; unfold np_bin. rewrite (proj2 (Nat.eqb_eq _ _) H); reflexivity. Qed.

(** a broadcast binary operation on arrays succeeds exactly when the lengths
    agree or one of them is 1 *)
Lemma np_bin_ok_iff : forall {A B D} (f : A -> B -> D) l m,
  is_ok (np_bin f l m) <-> (length l = length m \/ length l = 1%nat \/ length m = 1%nat).
Proof.
  intros A B D f l m; unfold np_bin, is_ok.
  destruct (Nat.eqb_spec (length l) (length m)) as [E|E].
  - split; eauto.
  - destruct l as [|x [|y l]]; destruct m as [|u [|v m]]; simpl in *;
      (split; [intros [? H]; try discriminate H; auto; lia | intros H; first [solve [eauto] | exfalso; lia]]).
Qed.

(** ** Sums *)

Lemma csum_app : forall l m, csum (l ++ m) = (csum l + csum m)%C.
Proof.
  induction l; intros; simpl. symmetry; apply Cplus_0_l.
  rewrite IHl. apply Cplus_assoc.
Qed.
Lemma csum_map2_plus : forall {A} (f g : A -> C) l,
  csum (map (fun a => f a + g a)%C l) = (csum (map f l) + csum (map g l))%C.
Proof. induction l; simpl. cplx. rewrite IHl. cplx. Qed.
Lemma csum_map_opp : forall {A} (f : A -> C) l,
  csum (map (fun a => - f a)%C l) = (- csum (map f l))%C.
Proof. induction l; simpl. cplx. rewrite IHl. cplx. Qed.
Lemma csum_map_scal : forall {A} c (f : A -> C) l,
  csum (map (fun a => c * f a)%C l) = (c * csum (map f l))%C.
Proof. induction l; simpl. cplx. rewrite IHl. cplx. Qed.
Lemma csum_map_scal_r : forall {A} c (f : A -> C) l,
  csum (map (fun a => f a * c)%C l) = (csum (map f l) * c)%C.
Proof. induction l; simpl. cplx. rewrite IHl. cplx. Qed.
Lemma csum_map_0 : forall {A} (f : A -> C) l, (forall a, In a l -> f a = RtoC 0) ->
  csum (map f l) = RtoC 0.
Proof.
  induction l; simpl; intros; auto. rewrite IHl, H; auto. cplx.
Qed.
Lemma csum_conj : forall l, Cconj (csum l) = csum (map Cconj l).
Proof. induction l; simpl. cplx. rewrite Cconj_plus, IHl; reflexivity. Qed.
Lemma csum_exchange : forall {A B} (f : A -> B -> C) l m,
  csum (map (fun a => csum (map (fun b => f a b) m)) l)
  = csum (map (fun b => csum (map (fun a => f a b) l)) m).
Proof.
  induction l; intros; simpl.
  - symmetry; apply csum_map_0; auto.
  - rewrite IHl, <- csum_map2_plus. reflexivity.
Qed.
Lemma csum_map_ext : forall {A} (f g : A -> C) l,
  (forall a, In a l -> f a = g a) -> csum (map f l) = csum (map g l).
Proof. intros; f_equal; apply map_ext_in; auto. Qed.
Lemma Re_csum : forall l, Re (csum l) = rsum (map Re l).
Proof. induction l; auto. cbn [map rsum fold_right]. fold (rsum (map Re l)). rewrite <- IHl. reflexivity. Qed.
Lemma Im_csum : forall l, Im (csum l) = rsum (map Im l).
Proof. induction l; auto. cbn [map rsum fold_right]. fold (rsum (map Im l)). rewrite <- IHl. reflexivity. Qed.
Lemma csum_RtoC : forall l, csum (map RtoC l) = RtoC (rsum l).
Proof. induction l; simpl; auto. rewrite IHl, RtoC_plus; reflexivity. Qed.

Lemma rsum_app : forall l m, rsum (l ++ m) = rsum l + rsum m.
Proof. induction l; intros; simpl; [ring|rewrite IHl; ring]. Qed.
Lemma rsum_map_plus : forall {A} (f g : A -> R) l,
  rsum (map (fun a => f a + g a) l) = rsum (map f l) + rsum (map g l).
Proof. induction l; simpl; [ring|rewrite IHl; ring]. Qed.
Lemma rsum_map_scal : forall {A} c (f : A -> R) l,
  rsum (map (fun a => c * f a) l) = c * rsum (map f l).
Proof. induction l; simpl; [ring|rewrite IHl; ring]. Qed.
Lemma rsum_nonneg : forall l, (forall a, In a l -> 0 <= a) -> 0 <= rsum l.
Proof.
  induction l; simpl; intros; [lra|].
  assert (0 <= a) by auto. assert (0 <= rsum l) by auto. lra.
Qed.
Lemma rsum_map_le : forall {A} (f g : A -> R) l,
  (forall a, In a l -> f a <= g a) -> rsum (map f l) <= rsum (map g l).
Proof.
  induction l; simpl; intros; [lra|].
  assert (f a <= g a) by auto. assert (rsum (map f l) <= rsum (map g l)) by auto. lra.
Qed.
Lemma rsum_zero_all : forall l, (forall a, In a l -> 0 <= a) -> rsum l = 0 ->
  forall a, In a l -> a = 0.
Proof.
  induction l; simpl; intros; [tauto|].
  assert (0 <= a) by auto. assert (0 <= rsum l) by (apply rsum_nonneg; auto).
  destruct H1; [subst; lra|]. apply IHl; auto. lra.
Qed.
Lemma rsum_map_ext : forall {A} (f g : A -> R) l,
  (forall a, In a l -> f a = g a) -> rsum (map f l) = rsum (map g l).
Proof. intros; f_equal; apply map_ext_in; auto. Qed.
Lemma rsum_const : forall {A} c (l : list A), rsum (map (fun _ => c) l) = INR (length l) * c.
Proof.
  induction l; simpl map; simpl rsum; [simpl; ring|].
  rewrite IHl. simpl length; rewrite S_INR. ring.
Qed.

(** ** Inner products *)

Lemma cdot_conj : forall x y, Cconj (cdot x y) = cdot y x.
Proof.
  intros x y; unfold cdot; rewrite csum_conj, map_map2, map2_flip. f_equal.
  apply map2_ext; intros; rewrite Cconj_mult, Cconj_invol, Cmult_comm; reflexivity.
Qed.
Lemma cdot_self : forall x, cdot x x = RtoC (nrm2 x).
Proof.
  intros x; unfold cdot, nrm2; rewrite map2_diag, <- csum_RtoC, map_map. f_equal.
  apply map_ext; intros; apply Cconj_mult_self.
Qed.
Lemma cdot_vadd_r : forall x y z, length x = length y -> length y = length z ->
  cdot x (vadd y z) = (cdot x y + cdot x z)%C.
Proof.
  induction x; destruct y, z; unfold cdot, vadd in *; simpl; intros; try lia; [ring|].
  rewrite IHx, ?Cconj_plus, ?Cconj_minus by lia. ring.
Qed.
Lemma cdot_vsub_r : forall x y z, length x = length y -> length y = length z ->
  cdot x (vsub y z) = (cdot x y - cdot x z)%C.
Proof.
  induction x; destruct y, z; unfold cdot, vsub in *; simpl; intros; try lia; [ring|].
  rewrite IHx, ?Cconj_plus, ?Cconj_minus by lia. ring.
Qed.
Lemma cdot_vscal_r : forall c x y, cdot x (vscal c y) = (c * cdot x y)%C.
Proof.
  intros c; induction x; destruct y; unfold cdot, vscal in *; simpl; try ring.
  rewrite IHx, ?Cconj_mult. ring.
Qed.
Lemma cdot_vadd_l : forall x y z, length x = length y -> length y = length z ->
  cdot (vadd x y) z = (cdot x z + cdot y z)%C.
Proof.
  induction x; destruct y, z; unfold cdot, vadd in *; simpl; intros; try lia; [ring|].
  rewrite IHx, ?Cconj_plus, ?Cconj_minus by lia. ring.
Qed.
Lemma cdot_vsub_l : forall x y z, length x = length y -> length y = length z ->
  cdot (vsub x y) z = (cdot x z - cdot y z)%C.
Proof.
  induction x; destruct y, z; unfold cdot, vsub in *; simpl; intros; try lia; [ring|].
  rewrite IHx, ?Cconj_plus, ?Cconj_minus by lia. ring.
Qed.
Lemma cdot_vscal_l : forall c x y, cdot (vscal c x) y = (Cconj c * cdot x y)%C.
Proof.
  intros c; induction x; destruct y; unfold cdot, vscal in *; simpl; try ring.
  rewrite IHx, ?Cconj_mult. ring.
Qed.
Lemma vadd_length : forall x y, length x = length y -> length (vadd x y) = length x.
Proof. intros; apply map2_length; auto. Qed.
Lemma vsub_length : forall x y, length x = length y -> length (vsub x y) = length x.
Proof. intros; apply map2_length; auto. Qed.
Lemma vscal_length : forall c x, length (vscal c x) = length x.
Proof. intros; apply map_length. Qed.

Lemma nrm2_nonneg : forall x, 0 <= nrm2 x.
Proof.
  intros; unfold nrm2; apply rsum_nonneg. intros a H; apply in_map_iff in H.
  destruct H as [z [<- _]]. apply pow2_ge_0.
Qed.
Lemma l1norm_nonneg : forall x, 0 <= l1norm x.
Proof.
  intros; unfold l1norm; apply rsum_nonneg. intros a H; apply in_map_iff in H.
  destruct H as [z [<- _]]. apply Cmod_ge_0.
Qed.
Lemma nrm2_zero_iff : forall x, nrm2 x = 0 <-> x = vzero (length x).
Proof.
  intros x; split.
  - intros H. assert (A : forall z, In z x -> z = RtoC 0).
    { intros z Hz. apply Cmod_eq_0.
      assert ((Cmod z) ^ 2 = 0).
      { apply (rsum_zero_all (map (fun z => (Cmod z) ^ 2) x)); auto.
        - intros a Ha; apply in_map_iff in Ha; destruct Ha as [u [<- _]]; apply pow2_ge_0.
        - apply (in_map (fun z => (Cmod z) ^ 2)); auto. }
      destruct (Req_dec (Cmod z) 0); auto. exfalso; apply (pow_nonzero (Cmod z) 2); auto. }
    clear H. induction x; auto. change (a :: x = RtoC 0 :: vzero (length x)).
    rewrite (A a) by (left; auto). rewrite <- IHx by (intros; apply A; right; auto). reflexivity.
  - intros ->. unfold nrm2, vzero.
    induction (length x); [reflexivity|]. cbn [repeat map rsum fold_right]. fold (rsum (map (fun z => (Cmod z) ^ 2) (repeat (RtoC 0) n))).
    rewrite IHn, Cmod_0; ring.
Qed.

(** ** Matrices *)

Lemma matvec_length : forall A x, length (matvec A x) = m_rows A.
Proof. intros; unfold matvec; rewrite map_length, seq_length; auto. Qed.
Lemma nth_matvec : forall A x i d, (i < m_rows A)%nat ->
  nth i (matvec A x) d = csum (map (fun j => m_ent A i j * nth j x (RtoC 0))%C (seq 0 (m_cols A))).
Proof.
  intros; unfold matvec.
  rewrite nth_indep with (d' := (fun i => csum (map (fun j => m_ent A i j * nth j x (RtoC 0))%C (seq 0 (m_cols A)))) O).
  - rewrite (map_nth (fun i => csum (map (fun j => m_ent A i j * nth j x (RtoC 0))%C (seq 0 (m_cols A))))).
    rewrite seq_nth; auto.
  - rewrite map_length, seq_length; auto.
Qed.

Lemma list_as_map_nth : forall {A} (d : A) l, l = map (fun i => nth i l d) (seq 0 (length l)).
Proof.
  intros A d l; induction l; simpl; auto. f_equal.
  rewrite <- seq_shift, map_map. exact IHl.
Qed.

Lemma cdot_as_sum : forall x y, length x = length y ->
  cdot x y = csum (map (fun i => Cconj (nth i x (RtoC 0)) * nth i y (RtoC 0))%C (seq 0 (length x))).
Proof.
  intros x y H; unfold cdot. f_equal.
  rewrite (list_as_map_nth (RtoC 0) x) at 1. rewrite (list_as_map_nth (RtoC 0) y) at 1.
  rewrite <- H. rewrite map2_map_same. reflexivity.
Qed.

(** <y, A x> = <A^H y, x> *)
Lemma matvec_adjoint : forall A x y,
  length x = m_cols A -> length y = m_rows A ->
  cdot y (matvec A x) = cdot (matvec (getH A) y) x.
Proof.
  intros A x y Hx Hy.
  rewrite cdot_as_sum by (rewrite matvec_length; auto).
  rewrite (cdot_as_sum (matvec (getH A) y)) by (rewrite matvec_length; simpl; auto).
  rewrite matvec_length. simpl m_rows. rewrite Hy.
  transitivity (csum (map (fun i => csum (map (fun j =>
     Cconj (nth i y (RtoC 0)) * (m_ent A i j * nth j x (RtoC 0)))%C (seq 0 (m_cols A)))) (seq 0 (m_rows A)))).
  { apply csum_map_ext; intros i Hi; apply in_seq in Hi.
    rewrite nth_matvec by lia. rewrite csum_map_scal; reflexivity. }
  rewrite csum_exchange. apply csum_map_ext; intros j Hj; apply in_seq in Hj.
  rewrite nth_matvec by (simpl; lia). simpl.
  rewrite csum_conj, map_map, <- csum_map_scal_r.
  apply csum_map_ext; intros i Hi. rewrite Cconj_mult, Cconj_invol. ring.
Qed.

Lemma nth_vscal : forall c x i, nth i (vscal c x) (RtoC 0) = (c * nth i x (RtoC 0))%C.
Proof. induction x; destruct i; simpl; auto; ring. Qed.

Lemma matvec_linear : forall A x y c, length x = length y ->
  matvec A (vadd x (vscal c y)) = vadd (matvec A x) (vscal c (matvec A y)).
Proof.
  intros A x y c H. unfold matvec, vadd at 2, vscal at 2. rewrite map_map, map2_map_same.
  apply map_ext; intros i. rewrite <- csum_map_scal, <- csum_map2_plus.
  apply csum_map_ext; intros j _.
  destruct (Nat.lt_ge_cases j (length x)) as [L|L].
  - unfold vadd. rewrite (nth_map2 _ _ _ _ (RtoC 0) (RtoC 0)) by (rewrite ?vscal_length; auto).
    rewrite nth_vscal. ring.
  - rewrite (nth_overflow (vadd x (vscal c y))) by (rewrite vadd_length; rewrite ?vscal_length; auto).
    rewrite (nth_overflow x), (nth_overflow y) by lia. ring.
Qed.

(** entry of a diagonal matrix product *)
Lemma csum_single : forall (f : nat -> C) i n, (i < n)%nat ->
  csum (map (fun j => if Nat.eqb i j then f j else RtoC 0) (seq 0 n)) = f i.
Proof.
  intros f i n H.
  assert (G : forall k a, csum (map (fun j => if Nat.eqb i j then f j else RtoC 0) (seq a k))
     = if (Nat.leb a i && Nat.ltb i (a + k))%bool then f i else RtoC 0).
  { induction k; intros a; simpl.
    - destruct (Nat.leb_spec a i), (Nat.ltb_spec i (a + 0)); simpl; auto; lia.
    - rewrite IHk. destruct (Nat.eqb_spec i a), (Nat.leb_spec (S a) i), (Nat.leb_spec a i),
        (Nat.ltb_spec i (S a + k)), (Nat.ltb_spec i (a + S k)); simpl; subst; try lia; try ring. }
  rewrite G. destruct (Nat.leb_spec 0 i), (Nat.ltb_spec i (0 + n)); simpl; auto; lia.
Qed.
Lemma matvec_diags : forall d x, length x = length d ->
  matvec (diags d) x = map2 Cmult d x.
Proof.
  intros d x H. apply nth_ext with (d := RtoC 0) (d' := RtoC 0).
  - rewrite matvec_length, map2_length by auto. reflexivity.
  - rewrite matvec_length. intros i Hi. rewrite nth_matvec by auto. simpl in *.
    rewrite (nth_map2 _ _ _ _ (RtoC 0) (RtoC 0)) by auto.
    rewrite <- (csum_single (fun j => (nth i d (RtoC 0) * nth j x (RtoC 0))%C) i (length d)) by lia.
    apply csum_map_ext; intros j _. destruct (Nat.eqb i j); ring.
Qed.
Lemma matvec_scaled_identity : forall n c x, length x = n ->
  matvec (scaled_identity n c) x = vscal c x.
Proof.
  intros n c x H. apply nth_ext with (d := RtoC 0) (d' := RtoC 0).
  - rewrite matvec_length, vscal_length. auto.
  - rewrite matvec_length. intros i Hi. rewrite nth_matvec, nth_vscal by auto. simpl in *.
    rewrite <- (csum_single (fun j => (c * nth j x (RtoC 0))%C) i n) by lia.
    apply csum_map_ext; intros j _. destruct (Nat.eqb i j); ring.
Qed.
