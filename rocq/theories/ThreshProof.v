From Coq Require Import List ZArith Lia Bool Reals Lra Psatz.
From Coquelicot Require Import Coquelicot.
From Verif Require Import PyBase CVec RSort Thresh ThreshSpec.
Import ListNotations.
Open Scope R_scope.

(** ** soft, componentwise *)

Lemma sign_vec_map : forall z, sign_vec z =
  map (fun x => if Req_EM_T (Cmod x) 0 then RtoC 0 else x / RtoC (Cmod x))%C z.
Proof.
  unfold sign_vec, vabs. induction z as [|x z IH]; simpl in *; auto.
  f_equal; [|exact IH]. unfold Reqb. destruct (Req_EM_T (Cmod x) 0); auto.
  unfold Cdiv. rewrite Cmult_0_l. reflexivity.
Qed.

Lemma np_bin_1_l : forall {A B D} (f : A -> B -> D) x m, np_bin f [x] m = Ok (map (f x) m).
Proof.
  intros; unfold np_bin; simpl. destruct m as [|y [|y' m]]; simpl; auto.
Qed.
Lemma np_bin_1_r : forall {A B D} (f : A -> B -> D) l y, np_bin f l [y] = Ok (map (fun x => f x y) l).
Proof.
  intros; unfold np_bin; simpl. destruct l as [|x [|x' l]]; simpl; auto.
Qed.
Lemma np_bin_raise : forall {A B D} (f : A -> B -> D) l m,
  length l <> length m -> length l <> 1%nat -> length m <> 1%nat -> np_bin f l m = Raise ValueError.
Proof.
  intros; unfold np_bin. rewrite (proj2 (Nat.eqb_neq _ _) H).
  destruct l as [|x [|x' l]]; simpl in *; try lia; destruct m as [|y [|y' m]]; simpl in *; try lia; auto.
Qed.

Lemma soft_cell : forall x t,
  (if Rleb (Cmod x) t then RtoC 0
   else (if Req_EM_T (Cmod x) 0 then RtoC 0 else x / RtoC (Cmod x)) * RtoC (Cmod x - t))%C = soft1 x t.
Proof.
  intros; unfold soft1, Rleb. destruct (Rle_dec (Cmod x) t); auto.
  destruct (Req_EM_T (Cmod x) 0); [apply Cmult_0_l|].
  unfold Rdiv. rewrite RtoC_mult, RtoC_inv by auto. unfold Cdiv. ring.
Qed.

Lemma soft_same : forall X Tl, length Tl = length X -> soft X (TVec Tl) = Ok (map2 soft1 X Tl).
Proof.
  intros X Tl H. unfold soft, thr_bin, np_mul, vabs. rewrite sign_vec_map.
  rewrite !np_bin_same by (rewrite map_length; auto). simpl.
  rewrite np_bin_same by (rewrite !map_length, map2_length; rewrite map_length; auto). simpl.
  unfold mask_assign. rewrite !map2_length by (rewrite ?map_length, ?map2_length; rewrite ?map_length; auto).
  rewrite !map_length, Nat.eqb_refl. f_equal.
  clear - H. revert Tl H. induction X; destruct Tl; simpl; intros; auto; try lia.
  f_equal; [|apply IHX; lia]. apply soft_cell.
Qed.

Lemma soft_scal : forall X t, soft X (TScal t) = Ok (map (fun x => soft1 x t) X).
Proof.
  intros X t. unfold soft, thr_bin, np_mul, vabs. rewrite sign_vec_map. simpl.
  rewrite np_bin_same by (rewrite !map_length; auto). simpl.
  unfold mask_assign. rewrite map2_length by (rewrite !map_length; auto).
  rewrite !map_length, Nat.eqb_refl. f_equal.
  rewrite !map_map. rewrite map2_map_same, map2_map_same.
  apply map_ext; intros. apply soft_cell.
Qed.

Lemma soft_vec1 : forall X t, soft X (TVec [t]) = Ok (map (fun x => soft1 x t) X).
Proof.
  intros X t. unfold soft, thr_bin, np_mul, vabs. rewrite sign_vec_map. rewrite !np_bin_1_r. simpl.
  rewrite np_bin_same by (rewrite !map_length; auto). simpl.
  unfold mask_assign. rewrite map2_length by (rewrite !map_length; auto).
  rewrite !map_length, Nat.eqb_refl. f_equal.
  rewrite !map_map. rewrite map2_map_same, map2_map_same.
  apply map_ext; intros. apply soft_cell.
Qed.

Lemma soft_x1 : forall x Tl, soft [x] (TVec Tl) = Ok (map (soft1 x) Tl).
Proof.
  intros x Tl. unfold soft, thr_bin, np_mul, vabs. rewrite sign_vec_map. cbn [map].
  rewrite !np_bin_1_l. cbn [rbind]. rewrite np_bin_1_l. cbn [rbind].
  unfold mask_assign. rewrite !map_length, Nat.eqb_refl. f_equal.
  rewrite !map_map, map2_map_same. apply map_ext; intros. apply soft_cell.
Qed.

Lemma soft_shape_error : forall X Tl, length Tl <> length X -> length Tl <> 1%nat -> length X <> 1%nat ->
  soft X (TVec Tl) = Raise ValueError.
Proof.
  intros. unfold soft, thr_bin, vabs. rewrite np_bin_raise; auto; rewrite map_length; auto.
Qed.

Lemma map2_repeat : forall {A B D} (f : A -> B -> D) l b, map2 f l (repeat b (length l)) = map (fun a => f a b) l.
Proof. induction l; simpl; intros; auto. f_equal; auto. Qed.

Lemma soft_thresholds : forall X T Tl, thresholds T (length X) Tl -> soft X T = Ok (map2 soft1 X Tl).
Proof.
  intros X T Tl [L H]. destruct T as [t|ts].
  - subst. rewrite soft_scal, map2_repeat. reflexivity.
  - destruct H as [->|[t [-> ->]]].
    + apply soft_same; auto.
    + rewrite soft_vec1, map2_repeat. reflexivity.
Qed.

(** ** soft1 is the prox of t|.| on C *)

Lemma Cmod_soft1 : forall z t, 0 <= t -> Cmod (soft1 z t) = Rmax (Cmod z - t) 0.
Proof.
  intros z t Ht; unfold soft1. destruct (Rle_dec (Cmod z) t).
  - rewrite Cmod_0, Rmax_right; lra.
  - assert (0 < Cmod z) by lra. destruct (Req_EM_T (Cmod z) 0); [lra|].
    rewrite Cmod_mult, Cmod_R, Rmax_left by lra.
    rewrite Rabs_right.
    + field; lra.
    + apply Rle_ge. apply Rmult_le_pos; [lra|]. left; apply Rinv_0_lt_compat; auto.
Qed.

Lemma Re_conj_self : forall z, Re (Cconj z * z)%C = (Cmod z) ^ 2.
Proof. intros; rewrite Cconj_mult_self; reflexivity. Qed.

(** variational inequality: t|v| - t|s| >= Re <v-s, z-s> *)
Lemma soft1_variational : forall z t v, 0 <= t ->
  Re (Cconj (v - soft1 z t) * (z - soft1 z t))%C <= t * Cmod v - t * Cmod (soft1 z t).
Proof.
  intros z t v Ht. rewrite Cmod_soft1 by auto. unfold soft1. destruct (Rle_dec (Cmod z) t).
  - rewrite Rmax_right by lra.
    replace ((Cconj (v - 0) * (z - 0)))%C with (Cconj v * z)%C by (rewrite Cconj_minus, Cconj_R; ring).
    eapply Rle_trans; [apply Re_conj_mult_le|]. rewrite Rmult_0_r, Rminus_0_r, Rmult_comm.
    apply Rmult_le_compat_r; auto. apply Cmod_ge_0.
  - assert (Z : 0 < Cmod z) by lra. destruct (Req_EM_T (Cmod z) 0); [lra|].
    rewrite Rmax_left by lra.
    set (c := (Cmod z - t) / Cmod z).
    assert (Hc : 1 - c = t / Cmod z) by (unfold c; field; lra).
    replace (Cconj (v - RtoC c * z) * (z - RtoC c * z))%C
      with (RtoC (1 - c) * (Cconj v * z) - RtoC (c * (1 - c)) * (Cconj z * z))%C.
    2:{ rewrite Cconj_minus, Cconj_mult, Cconj_R, RtoC_mult, RtoC_minus. ring. }
    rewrite Re_minus, !Re_scal, Re_conj_self, Hc.
    assert (B := Re_conj_mult_le v z).
    assert (T1 : t / Cmod z * Re (Cconj v * z)%C <= t * Cmod v).
    { replace (t * Cmod v) with (t / Cmod z * (Cmod v * Cmod z)) by (field; lra).
      apply Rmult_le_compat_l; auto. apply Rmult_le_pos; [auto|]. left; apply Rinv_0_lt_compat; auto. }
    replace (c * (t / Cmod z) * Cmod z ^ 2) with (t * (Cmod z - t)) by (unfold c; field; lra).
    lra.
Qed.

Lemma Cmod_sub_expand : forall u z s,
  (Cmod (u - z)%C) ^ 2 = (Cmod (s - z)%C) ^ 2 + (Cmod (u - s)%C) ^ 2 - 2 * Re (Cconj (u - s) * (z - s))%C.
Proof.
  intros [a b] [c d] [e f]. rewrite !Cmod_sq. unfold Re. simpl. ring.
Qed.

Lemma soft1_prox : forall z t u, 0 <= t ->
  (1 / 2 * (Cmod (soft1 z t - z)%C) ^ 2 + t * Cmod (soft1 z t)) + 1 / 2 * (Cmod (u - soft1 z t)%C) ^ 2
  <= 1 / 2 * (Cmod (u - z)%C) ^ 2 + t * Cmod u.
Proof.
  intros z t u Ht. assert (V := soft1_variational z t u Ht).
  rewrite (Cmod_sub_expand u z (soft1 z t)). lra.
Qed.

Lemma soft1_nonexpansive : forall z w t, 0 <= t -> Cmod (soft1 z t - soft1 w t)%C <= Cmod (z - w)%C.
Proof.
  intros z w t Ht.
  assert (A := soft1_variational z t (soft1 w t) Ht).
  assert (B := soft1_variational w t (soft1 z t) Ht).
  set (a := soft1 z t) in *. set (b := soft1 w t) in *.
  assert (Cc : (Cmod (a - b)%C) ^ 2 <= Re (Cconj (a - b) * (z - w))%C).
  { rewrite Cmod_sq. destruct a as [a1 a2], b as [b1 b2], z as [z1 z2], w as [w1 w2].
    unfold Re in *. simpl in *. lra. }
  assert (D := Re_conj_mult_le (a - b)%C (z - w)%C).
  destruct (Req_dec (Cmod (a - b)%C) 0) as [E|E]; [rewrite E; apply Cmod_ge_0|].
  assert (0 < Cmod (a - b)%C) by (generalize (Cmod_ge_0 (a - b)%C); lra).
  apply Rmult_le_reg_l with (Cmod (a - b)%C); auto. lra.
Qed.

(** ** lifting to vectors *)

Lemma soft_is_prox : forall X Tl, length Tl = length X -> (forall t, In t Tl -> 0 <= t) ->
  is_prox (wl1 Tl) X (map2 soft1 X Tl).
Proof.
  intros X Tl L N. split; [apply map2_length; auto|].
  unfold prox_objective, nrm2, wl1, vsub.
  revert Tl L N; induction X as [|x X IH]; destruct Tl as [|t Tl]; simpl; intros L N u Hu;
    try discriminate; destruct u as [|y u]; try discriminate; simpl.
  - lra.
  - assert (H := soft1_prox x t y (N t (or_introl eq_refl))).
    specialize (IH Tl (eq_add_S _ _ L) (fun t' h => N t' (or_intror h)) u (eq_add_S _ _ Hu)).
    simpl in H, IH. lra.
Qed.

Lemma map2_nil_r : forall {A B D} (f : A -> B -> D) l, map2 f l [] = [].
Proof. destruct l; reflexivity. Qed.

Lemma nrm2_cons : forall z l, nrm2 (z :: l) = (Cmod z) ^ 2 + nrm2 l.
Proof. reflexivity. Qed.
Lemma pow2_zero : forall r, r ^ 2 = 0 -> r = 0.
Proof. intros r H. destruct (Req_dec r 0); auto. exfalso; apply (pow_nonzero r 2); auto. Qed.
Lemma vsub_zero_eq : forall u s, length u = length s -> nrm2 (vsub u s) = 0 -> u = s.
Proof.
  induction u; destruct s; intros H N; try discriminate; auto.
  change (vsub (a :: u) (c :: s)) with ((a - c)%C :: vsub u s) in N. rewrite nrm2_cons in N.
  assert (P : 0 <= nrm2 (vsub u s)) by apply nrm2_nonneg.
  assert (Q : 0 <= (Cmod (a - c)%C) ^ 2) by apply pow2_ge_0.
  rewrite (IHu s); [|simpl in H; lia|lra].
  assert (Z : (Cmod (a - c)%C) ^ 2 = 0) by lra.
  apply pow2_zero in Z. apply Cmod_eq_0 in Z.
  replace a with ((a - c) + c)%C by ring. rewrite Z. f_equal. ring.
Qed.

Lemma is_prox_unique_minimiser : forall g X s, is_prox g X s -> unique_minimiser g X s.
Proof.
  intros g X s [L H]. repeat split; auto.
  - intros u Hu. assert (A := H u Hu). assert (B := nrm2_nonneg (vsub u s)). lra.
  - intros u Hu K. assert (A := H u Hu). assert (B := nrm2_nonneg (vsub u s)).
    apply vsub_zero_eq; [congruence|lra].
Qed.

Lemma is_prox_ext : forall g h X s, (forall u, length u = length X -> g u = h u) ->
  is_prox g X s -> is_prox h X s.
Proof.
  intros g h X s E [L H]. split; auto. intros u Hu. specialize (H u Hu).
  unfold prox_objective in *. rewrite <- !E by auto. exact H.
Qed.

Lemma soft_nonexpansive : forall Tl X Y, length X = length Tl -> length Y = length Tl ->
  (forall t, In t Tl -> 0 <= t) ->
  nrm2 (vsub (map2 soft1 X Tl) (map2 soft1 Y Tl)) <= nrm2 (vsub X Y).
Proof.
  unfold nrm2, vsub. induction Tl as [|t Tl IH]; destruct X as [|x X], Y as [|y Y];
    simpl; intros HX HY N; try discriminate; [lra|].
  assert (A := soft1_nonexpansive x y t (N t (or_introl eq_refl))).
  assert (B := Cmod_ge_0 (soft1 x t - soft1 y t)%C).
  specialize (IH X Y (eq_add_S _ _ HX) (eq_add_S _ _ HY) (fun t' h => N t' (or_intror h))).
  assert ((Cmod (soft1 x t - soft1 y t)%C) ^ 2 <= (Cmod (x - y)%C) ^ 2) by (apply pow_incr; lra).
  simpl in H, IH. lra.
Qed.

Lemma soft1_zero_iff : forall z t, 0 <= t -> (soft1 z t = RtoC 0 <-> Cmod z <= t).
Proof.
  intros z t Ht. split.
  - intros H. assert (E := Cmod_soft1 z t Ht). rewrite H, Cmod_0 in E.
    unfold Rmax in E. destruct (Rle_dec (Cmod z - t) 0); lra.
  - intros H. unfold soft1. destruct (Rle_dec (Cmod z) t); [auto|lra].
Qed.

Lemma soft1_phase : forall z t, 0 <= t -> exists c, 0 <= c <= 1 /\ soft1 z t = (RtoC c * z)%C.
Proof.
  intros z t Ht; unfold soft1. destruct (Rle_dec (Cmod z) t).
  - exists 0; split; [lra|]. ring.
  - destruct (Req_EM_T (Cmod z) 0).
    + exists 0; split; [lra|]. ring.
    + exists ((Cmod z - t) / Cmod z). split; auto. assert (0 < Cmod z) by lra. split.
      * apply Rmult_le_pos; [lra|]. left; apply Rinv_0_lt_compat; auto.
      * apply Rmult_le_reg_r with (Cmod z); auto. field_simplify; lra.
Qed.

(** ** hard *)

Lemma Rtrunc_nonneg : forall r, 0 <= r -> IZR (Rtrunc r) <= r < IZR (Rtrunc r) + 1.
Proof.
  intros r H; unfold Rtrunc. destruct (Rle_dec 0 r); [|lra].
  destruct (base_Int_part r). lra.
Qed.
Lemma Rtrunc_unique : forall r (k : Z), 0 <= r -> IZR k <= r < IZR k + 1 -> Rtrunc r = k.
Proof.
  intros r k H K. assert (A := Rtrunc_nonneg r H).
  assert (IZR (Rtrunc r) < IZR (k + 1)) by (rewrite plus_IZR; lra).
  assert (IZR k < IZR (Rtrunc r + 1)) by (rewrite plus_IZR; lra).
  apply lt_IZR in H0, H1. lia.
Qed.

Lemma mask_assign_filter : forall X (p : R -> bool),
  mask_assign X (map p (vabs X)) (RtoC 0) = Ok (map (fun x => if p (Cmod x) then RtoC 0 else x) X).
Proof.
  intros; unfold mask_assign, vabs. rewrite !map_length, Nat.eqb_refl. f_equal.
  rewrite map_map, map2_map_r, map2_diag. reflexivity.
Qed.

Lemma keeps_from_filter : forall v X,
  keeps_from v X (map (fun x => if Rltb (Cmod x) v then RtoC 0 else x) X).
Proof.
  intros v X. split; [apply map_length|]. intros i Hi.
  rewrite (nth_map_in _ _ _ _ (RtoC 0)) by auto.
  destruct (Rltb_spec (Cmod (nth i X (RtoC 0))) v); split; intros; auto; lra.
Qed.

Lemma py_index_neg : forall {A} (l : list A) (k : Z) (d : A),
  (1 <= k <= Z.of_nat (length l))%Z ->
  py_index l (- k) = Ok (nth (length l - Z.to_nat k) l d).
Proof.
  intros A l k d H. unfold py_index.
  destruct (Z.ltb_spec (- k) 0); [|lia].
  replace (Z.of_nat (length l) + - k)%Z with (Z.of_nat (length l - Z.to_nat k)) by lia.
  destruct (Z.ltb_spec (Z.of_nat (length l - Z.to_nat k)) 0); [lia|].
  destruct (Z.leb_spec (Z.of_nat (length l)) (Z.of_nat (length l - Z.to_nat k))); [lia|].
  simpl. rewrite Nat2Z.id. rewrite (nth_error_nth' l d) by lia. reflexivity.
Qed.
Lemma py_index_pos : forall {A} (l : list A) (k : Z) (d : A),
  (0 <= k < Z.of_nat (length l))%Z -> py_index l k = Ok (nth (Z.to_nat k) l d).
Proof.
  intros A l k d H. unfold py_index.
  destruct (Z.ltb_spec k 0); [lia|]. destruct (Z.ltb_spec k 0); [lia|].
  destruct (Z.leb_spec (Z.of_nat (length l)) k); [lia|].
  simpl. rewrite (nth_error_nth' l d) by lia. reflexivity.
Qed.
Lemma py_index_out : forall {A} (l : list A) (k : Z),
  (k < - Z.of_nat (length l) \/ Z.of_nat (length l) <= k)%Z -> py_index l k = Raise IndexError.
Proof.
  intros A l k H. unfold py_index.
  destruct (Z.ltb_spec k 0).
  - destruct (Z.ltb_spec (Z.of_nat (length l) + k) 0); [reflexivity|lia].
  - destruct (Z.ltb_spec k 0); [lia|]. destruct (Z.leb_spec (Z.of_nat (length l)) k); [reflexivity|lia].
Qed.

Lemma hard_threshold : forall X T k, k = Rtrunc (T * INR (length X)) ->
  (1 <= k <= Z.of_nat (length X))%Z ->
  exists v r, hard X T = Ok r /\ In v (vabs X) /\ keeps_from v X r /\
    (count (fun a => Rltb v a) (vabs X) < Z.to_nat k)%nat /\
    (Z.to_nat k <= count (fun a => Rleb v a) (vabs X))%nat.
Proof.
  intros X T k Hk B.
  assert (L : length (rsort (vabs X)) = length X) by (rewrite rsort_length; apply map_length).
  unfold hard. rewrite <- Hk. rewrite (py_index_neg _ k 0) by (rewrite L; auto). rewrite L.
  set (v := nth (length X - Z.to_nat k) (rsort (vabs X)) 0).
  simpl rbind. rewrite mask_assign_filter. eexists v, _. split; [reflexivity|].
  assert (Lv : length (vabs X) = length X) by apply map_length.
  destruct (order_statistic_top (vabs X) (length X - Z.to_nat k) 0) as [P Q]; [rewrite Lv; lia|].
  rewrite Lv in P, Q.
  replace (length X - (length X - Z.to_nat k))%nat with (Z.to_nat k) in P, Q by lia.
  repeat split; auto.
  - apply Permutation.Permutation_in with (rsort (vabs X)).
    + symmetry; apply rsort_perm.
    + apply nth_In. rewrite L. lia.
  - rewrite map_length; auto.
  - apply keeps_from_filter; auto.
  - apply keeps_from_filter; auto.
Qed.

Lemma hard_keeps_everything : forall X T, X <> [] -> Rtrunc (T * INR (length X)) = 0%Z -> hard X T = Ok X.
Proof.
  intros X T HX Hk. unfold hard. rewrite Hk. simpl Z.opp.
  assert (L : length (rsort (vabs X)) = length X) by (rewrite rsort_length; apply map_length).
  assert (length X <> O) by (destruct X; [congruence|discriminate]).
  rewrite (py_index_pos _ 0 0) by lia. simpl rbind. rewrite mask_assign_filter. f_equal.
  transitivity (map (fun x => x) X); [|apply map_id]. apply map_ext_in; intros x Hx.
  destruct (Rltb_spec (Cmod x) (nth 0 (rsort (vabs X)) 0)) as [C|]; auto. exfalso.
  assert (In (Cmod x) (rsort (vabs X))).
  { apply Permutation.Permutation_in with (vabs X); [apply rsort_perm|apply in_map; auto]. }
  apply In_nth with (d := 0) in H0. destruct H0 as [i [Hi E]].
  assert (nth 0 (rsort (vabs X)) 0 <= nth i (rsort (vabs X)) 0).
  { apply sorted_nth_le; [apply rsort_sorted|lia]. }
  lra.
Qed.

Lemma hard_out_of_range : forall X T k, k = Rtrunc (T * INR (length X)) ->
  (Z.of_nat (length X) < k \/ k <= - Z.of_nat (length X))%Z -> hard X T = Raise IndexError.
Proof.
  intros X T k Hk B. unfold hard. rewrite <- Hk. rewrite py_index_out; auto.
  rewrite rsort_length. unfold vabs; rewrite map_length. lia.
Qed.
