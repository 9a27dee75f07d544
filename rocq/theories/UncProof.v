(** Quantiles by linear interpolation. *)
From Coq Require Import List ZArith Lia Bool Reals Lra Permutation Sorted.
From Verif Require Import PyBase PyBaseFacts CVec RSort Utils UtilsProof Transforms Uncertainty.
Import ListNotations.
Open Scope R_scope.

Lemma floor_index : forall v k t, v = INR k + t -> 0 <= t < 1 -> Z.to_nat (Int_part v) = k.
Proof.
  intros v k t E H. assert (Q : Int_part v = Z.of_nat k).
  { assert (B := base_Int_part v). destruct B as (B1 & B2). rewrite INR_IZR_INZ in E.
    assert (IZR (Int_part v) < IZR (Z.of_nat k + 1)) by (rewrite plus_IZR; lra).
    assert (IZR (Z.of_nat k) < IZR (Int_part v + 1)) by (rewrite plus_IZR; lra).
    apply lt_IZR in H0. apply lt_IZR in H1. lia. }
  rewrite Q. apply Nat2Z.id.
Qed.
Lemma floor_parts : forall v, 0 <= v -> exists k t, v = INR k + t /\ 0 <= t < 1 /\ Z.to_nat (Int_part v) = k.
Proof.
  intros v H. assert (B := base_Int_part v). destruct B as (B1 & B2).
  assert (P : (0 <= Int_part v)%Z).
  { assert (IZR (-1) < IZR (Int_part v)) by lra. apply lt_IZR in H0. lia. }
  exists (Z.to_nat (Int_part v)), (v - INR (Z.to_nat (Int_part v))). rewrite INR_IZR_INZ, Z2Nat.id by exact P.
  split; [lra|]. split; [lra|]. reflexivity.
Qed.

(** value between two neighbours, the right end included *)
Lemma interp_segment : forall s k t, (S k < length s)%nat -> 0 <= t <= 1 ->
  interp s (INR k + t) = (1 - t) * nth k s 0 + t * nth (S k) s 0.
Proof.
  intros s k t Hk Ht. unfold interp. destruct (Req_dec t 1) as [->|N].
  - rewrite (floor_index (INR k + 1) (S k) 0) by (rewrite ?S_INR; lra). rewrite S_INR.
    replace (INR k + 1 - (INR k + 1)) with 0 by lra. lra.
  - rewrite (floor_index (INR k + t) k t) by lra. rewrite Nat.min_l by lia. ring.
Qed.
Lemma interp_last : forall s, (0 < length s)%nat -> interp s (INR (length s - 1)) = nth (length s - 1) s 0.
Proof.
  intros s H. unfold interp. rewrite (floor_index _ (length s - 1) 0) by lra. ring.
Qed.
Lemma index_cases : forall n v, (0 < n)%nat -> 0 <= v <= INR (n - 1) ->
  (exists k t, (S k < n)%nat /\ 0 <= t < 1 /\ v = INR k + t) \/ v = INR (n - 1).
Proof.
  intros n v Hn (H1 & H2). destruct (floor_parts v H1) as (k & t & E & Ht & _).
  destruct (le_lt_dec (n - 1) k) as [L|L].
  - right. apply le_INR in L. lra.
  - left. exists k, t. split; [lia|auto].
Qed.
Lemma interp_node : forall s k, (k < length s)%nat -> interp s (INR k) = nth k s 0.
Proof.
  intros s k H. unfold interp. rewrite (floor_index (INR k) k 0) by lra. ring.
Qed.

Lemma interp_bounds : forall s v, Sorted Rle s -> (0 < length s)%nat -> 0 <= v <= INR (length s - 1) ->
  nth 0 s 0 <= interp s v <= nth (length s - 1) s 0.
Proof.
  intros s v S0 Hn Hv. destruct (index_cases _ v Hn Hv) as [(k & t & Hk & Ht & ->)| ->].
  - rewrite interp_segment by lra || lia.
    assert (A := sorted_nth_le s 0 k 0 S0 ltac:(lia)). assert (B := sorted_nth_le s k (S k) 0 S0 ltac:(lia)).
    assert (D := sorted_nth_le s (S k) (length s - 1) 0 S0 ltac:(lia)). nra.
  - rewrite interp_last by exact Hn. split; [|lra]. apply sorted_nth_le; auto. lia.
Qed.

Lemma interp_mono : forall s v w, Sorted Rle s -> (0 < length s)%nat -> 0 <= v -> v <= w -> w <= INR (length s - 1) ->
  interp s v <= interp s w.
Proof.
  intros s v w S0 Hn H1 H2 H3.
  destruct (index_cases _ w Hn ltac:(lra)) as [(k & t & Hk & Ht & Ew)| ->].
  - destruct (index_cases _ v Hn ltac:(lra)) as [(k' & t' & Hk' & Ht' & Ev)| ->].
    + rewrite Ev, Ew, !interp_segment by lra || lia.
      assert (B := sorted_nth_le s k (S k) 0 S0 ltac:(lia)). assert (B' := sorted_nth_le s k' (S k') 0 S0 ltac:(lia)).
      destruct (Nat.lt_trichotomy k' k) as [L|[->|L]].
      * assert (D := sorted_nth_le s (S k') k 0 S0 ltac:(lia)). nra.
      * nra.
      * exfalso. assert (Q := le_INR (S k) k' ltac:(lia)). rewrite S_INR in Q. lra.
    + rewrite Ew in *. exfalso. assert (Q := le_INR (S k) (length s - 1) ltac:(lia)). rewrite S_INR in Q. lra.
  - rewrite interp_last by exact Hn. apply interp_bounds; auto; lra.
Qed.

Lemma interp_map_affine : forall s c d v, (0 < length s)%nat -> 0 <= v <= INR (length s - 1) ->
  interp (map (fun x => c * x + d) s) v = c * interp s v + d.
Proof.
  intros s c d v Hn Hv. assert (N : forall i, (i < length s)%nat -> nth i (map (fun x => c * x + d) s) 0 = c * nth i s 0 + d).
  { intros i Hi. rewrite nth_indep with (d' := c * 0 + d) by (rewrite map_length; exact Hi). rewrite (map_nth (fun x => c * x + d)). reflexivity. }
  destruct (index_cases _ v Hn Hv) as [(k & t & Hk & Ht & ->)| ->].
  - rewrite !interp_segment by (rewrite ?map_length; lra || lia). rewrite !N by lia. ring.
  - assert (E := interp_last (map (fun x => c * x + d) s)). rewrite map_length in E. rewrite E, interp_last, N by lia. reflexivity.
Qed.

Lemma interp_rev : forall s v, (0 < length s)%nat -> 0 <= v <= INR (length s - 1) ->
  interp (rev s) v = interp s (INR (length s - 1) - v).
Proof.
  intros s v Hn Hv. destruct (index_cases _ v Hn Hv) as [(k & t & Hk & Ht & ->)| ->].
  - rewrite interp_segment by (rewrite ?rev_length; lra || lia).
    rewrite !rev_nth by lia.
    assert (E : INR (length s - 1) - (INR k + t) = INR (length s - 2 - k) + (1 - t)).
    { rewrite !minus_INR by lia. simpl INR. lra. }
    rewrite E. rewrite interp_segment by lra || lia.
    replace (S (length s - 2 - k)) with (length s - S k)%nat by lia. replace (length s - 2 - k)%nat with (length s - S (S k))%nat by lia. ring.
  - replace (INR (length s - 1) - INR (length s - 1)) with (INR 0) by (simpl; lra).
    rewrite (interp_node s) by exact Hn. assert (E := interp_last (rev s)). rewrite rev_length in E. rewrite E by exact Hn.
    rewrite rev_nth by lia. f_equal. lia.
Qed.

Lemma np_quantile_Ok : forall a q, a <> [] -> 0 <= q <= 1 -> np_quantile a q = Ok (interp (rsort a) (q * INR (length a - 1))).
Proof.
  intros a q Ha Hq. unfold np_quantile. destruct (Rleb_spec 0 q); [|lra]. destruct (Rleb_spec q 1); [|lra]. cbn [andb].
  destruct a; [congruence|reflexivity].
Qed.
Lemma virtual_range : forall n q, 0 <= q <= 1 -> 0 <= q * INR (n - 1) <= INR (n - 1).
Proof. intros n q H. assert (0 <= INR (n - 1)) by apply pos_INR. nra. Qed.
