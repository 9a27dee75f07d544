(** Lemmas for the theorems about the experiment scripts. *)
From Coq Require Import List ZArith Lia Bool Reals Lra String.
From Coquelicot Require Import Coquelicot.
From Verif Require Import PyBase PyBaseFacts CVec RSort Utils UtilsSpec UtilsProof Measure MeasProof Prior Forward Transforms ExpData ExpSpec.
Import ListNotations.
Open Scope R_scope.
Notation length := List.length.

Lemma prefix_iff : forall p s, String.prefix p s = true <-> exists b, s = (p ++ b)%string.
Proof.
  induction p as [|c p IH]; intros s.
  - simpl. split; [intros _; exists s; reflexivity|]. destruct s; reflexivity.
  - destruct s as [|d s]; simpl.
    + split; [discriminate|]. intros (b & H). discriminate.
    + destruct (Ascii.ascii_dec c d) as [<-|N].
      * rewrite IH. split; intros (b & H); exists b; [subst; reflexivity|]. injection H as H. exact H.
      * split; [discriminate|]. intros (b & H). injection H as H _. congruence.
Qed.
Lemma str_contains_iff : forall sub s, str_contains sub s = true <-> contains sub s.
Proof.
  intros sub s. induction s as [|c s IH]; cbn [str_contains]; rewrite orb_true_iff, prefix_iff.
  - split.
    + intros [(b & H)|H]; [|discriminate]. exists EmptyString, b. exact H.
    + intros (a & b & H). left. exists b. destruct a; [exact H|discriminate].
  - rewrite IH. split.
    + intros [(b & H)|(a & b & H)]; [exists EmptyString, b; exact H|]. exists (String c a), b. simpl. congruence.
    + intros (a & b & H). destruct a as [|d a]; [left; exists b; exact H|]. right. exists a, b. injection H as _ H. exact H.
Qed.
Lemma str_contains_false : forall sub s, str_contains sub s = false <-> ~ contains sub s.
Proof. intros. rewrite <- str_contains_iff. destruct (str_contains sub s); split; congruence. Qed.
Lemma str_ends_iff : forall suf s, str_ends suf s = true <-> ends_with suf s.
Proof.
  intros suf s. induction s as [|c s IH]; cbn [str_ends]; rewrite orb_true_iff, String.eqb_eq.
  - split.
    + intros [H|H]; [|discriminate]. exists EmptyString. exact H.
    + intros (a & H). left. destruct a; [exact H|discriminate].
  - rewrite IH. split.
    + intros [H|(a & H)]; [exists EmptyString; exact H|]. exists (String c a). simpl. congruence.
    + intros (a & H). destruct a as [|d a]; [left; exact H|]. right. exists a. injection H as _ H. exact H.
Qed.

(** ** indexing *)
Lemma py_setitem_at : forall {A} (l l' : list A) k v, py_setitem l k v = Ok l' ->
  exists i, at_index (length l) k i /\ l' = upd l i v.
Proof.
  intros A l l' k v. unfold py_setitem, at_index. set (k' := if (k <? 0)%Z then _ else _).
  destruct ((k' <? 0)%Z || (Z.of_nat (length l) <=? k')%Z) eqn:E; [discriminate|]. apply orb_false_iff in E. destruct E as (E1 & E2).
  apply Z.ltb_ge in E1. apply Z.leb_gt in E2. intros H. apply Ok_inj in H. subst l'. exists (Z.to_nat k'). split; [|reflexivity].
  unfold k' in *. destruct (Z.ltb_spec k 0); lia.
Qed.
Lemma py_setitem_set : forall {A} (l : list A) k v i, at_index (length l) k i -> py_setitem l k v = Ok (upd l i v).
Proof.
  intros A l k v i (Hi & Hk). unfold py_setitem. set (k' := if (k <? 0)%Z then _ else _).
  assert (k' = Z.of_nat i) by (unfold k'; destruct (Z.ltb_spec k 0); lia).
  rewrite H. destruct (Z.ltb_spec (Z.of_nat i) 0); [lia|]. destruct (Z.leb_spec (Z.of_nat (length l)) (Z.of_nat i)); [lia|].
  cbn [orb]. rewrite Nat2Z.id. reflexivity.
Qed.
Lemma py_index_at : forall {A} (l : list A) k i d, at_index (length l) k i -> py_index l k = Ok (nth i l d).
Proof.
  intros A l k i d (Hi & Hk). unfold py_index. set (k' := if (k <? 0)%Z then _ else _).
  assert (k' = Z.of_nat i) by (unfold k'; destruct (Z.ltb_spec k 0); lia).
  rewrite H. destruct (Z.ltb_spec (Z.of_nat i) 0); [lia|]. destruct (Z.leb_spec (Z.of_nat (length l)) (Z.of_nat i)); [lia|].
  cbn [orb]. rewrite Nat2Z.id. rewrite (nth_error_nth' l d) by auto. reflexivity.
Qed.
Lemma py_index_ok_at : forall {A} (l : list A) k a d, py_index l k = Ok a -> exists i, at_index (length l) k i /\ a = nth i l d.
Proof.
  intros A l k a d. unfold py_index, at_index. set (k' := if (k <? 0)%Z then _ else _).
  destruct ((k' <? 0)%Z || (Z.of_nat (length l) <=? k')%Z) eqn:E; [discriminate|]. apply orb_false_iff in E. destruct E as (E1 & E2).
  apply Z.ltb_ge in E1. apply Z.leb_gt in E2. destruct (nth_error l (Z.to_nat k')) eqn:N; [|discriminate].
  intros H. apply Ok_inj in H. subst a0. exists (Z.to_nat k'). split.
  - unfold k' in *. destruct (Z.ltb_spec k 0); lia.
  - symmetry. apply nth_error_nth. exact N.
Qed.
Lemma at_index_fun : forall n k i j, at_index n k i -> at_index n k j -> i = j.
Proof. unfold at_index. intros. lia. Qed.

Lemma nth_upd : forall {A} (l : list A) i j a d, (i < length l)%nat -> nth j (upd l i a) d = if Nat.eqb j i then a else nth j l d.
Proof.
  induction l as [|x l IH]; intros i j a d Hi; simpl in Hi; [lia|]. destruct i; destruct j; simpl; auto. apply IH; lia.
Qed.
Lemma upd_length' : forall {A} (l : list A) i a, length (upd l i a) = length l.
Proof. induction l; intros [|i] b; simpl; auto. Qed.
Lemma table_row : forall m n c i, table m n c -> (i < n)%nat -> length (nth i m []) = c.
Proof. intros m n c i (L & H) Hi. apply H. apply nth_In. lia. Qed.
Lemma table_nth : forall m n c, length m = n -> (forall i, (i < n)%nat -> length (nth i m []) = c) -> table m n c.
Proof. intros m n c L H. split; auto. intros row Hr. apply (In_nth _ _ []) in Hr. destruct Hr as (i & Hi & <-). apply H. lia. Qed.

Lemma setitem2_at : forall m m' n c k l v, table m n c -> setitem2 m k l v = Ok m' ->
  exists i j, at_index n k i /\ at_index c l j /\ table m' n c /\
    forall i' j', (i' < n)%nat -> cell m' i' j' = if Nat.eqb i' i && Nat.eqb j' j then v else cell m i' j'.
Proof.
  intros m m' n c k l v T E. unfold setitem2 in E. destruct (py_index m k) as [row|] eqn:E1; cbn [rbind] in E; [|discriminate].
  destruct (py_index_ok_at _ _ _ [] E1) as (i & Ai & ->). destruct (py_setitem (nth i m []) l v) as [row'|] eqn:E2; cbn [rbind] in E; [|discriminate].
  destruct (py_setitem_at _ _ _ _ E2) as (j & Aj & ->). destruct (py_setitem_at _ _ _ _ E) as (i2 & Ai2 & ->).
  assert (T' := T). destruct T' as (Lm & _). rewrite Lm in Ai, Ai2. assert (i2 = i) by (eapply at_index_fun; eauto). subst i2.
  assert (Hi : (i < n)%nat) by apply Ai. rewrite (table_row m n c i T Hi) in Aj. exists i, j. split; [exact Ai|]. split; [exact Aj|]. split.
  - apply table_nth; [rewrite upd_length'; auto|]. intros i' Hi'. rewrite nth_upd by lia.
    destruct (Nat.eqb i' i); [rewrite upd_length'|]; apply (table_row m n c); auto.
  - intros i' j' Hi'. unfold cell. rewrite nth_upd by lia. destruct (Nat.eqb_spec i' i) as [->|N]; cbn [andb]; [|reflexivity].
    rewrite nth_upd; [reflexivity|]. rewrite (table_row m n c) by auto. apply Aj.
Qed.
Lemma fold_left_raise : forall {A B} (f : A -> B -> res A) l e,
  fold_left (fun st x => let* a := st in f a x) l (Raise e) = Raise e.
Proof. induction l; simpl; auto. Qed.

Section Block.
Variables (ti pi : R -> res Z) (n c : nat).
Definition row_hit (k : Z) (phis : list R) (i j : nat) : Prop :=
  exists phi l, In phi phis /\ pi phi = Ok l /\ at_index n k i /\ at_index c l j.
Lemma inner_block : forall k phis m m', table m n c ->
  fold_left (fun st phi => let* block := st in let* p := pi phi in setitem2 block k p 1) phis (Ok m) = Ok m' ->
  table m' n c /\ forall i j, (i < n)%nat ->
    (cell m' i j = 1 /\ row_hit k phis i j) \/ (cell m' i j = cell m i j /\ ~ row_hit k phis i j).
Proof.
  intros k phis. induction phis as [|phi phis IH]; intros m m' T E.
  - apply Ok_inj in E. subst m'. split; auto. intros i j Hi. right. split; auto. intros (? & ? & [] & _).
  - cbn [fold_left rbind] in E. destruct (pi phi) as [l|] eqn:El; cbn [rbind] in E; [|rewrite fold_left_raise in E; discriminate].
    destruct (setitem2 m k l 1) as [m1|] eqn:E1; [|rewrite fold_left_raise in E; discriminate].
    destruct (setitem2_at _ _ _ _ _ _ _ T E1) as (i0 & j0 & A0 & B0 & T1 & C1). destruct (IH m1 m' T1 E) as (T' & H).
    split; auto. intros i j Hi. destruct (H i j Hi) as [(V & phi' & l' & I' & Q)|(V & N)].
    + left. split; auto. exists phi', l'. split; [right; auto|exact Q].
    + rewrite V, (C1 i j Hi). destruct (Nat.eqb_spec i i0) as [->|Ni]; [destruct (Nat.eqb_spec j j0) as [->|Nj]|]; cbn [andb].
      * left. split; auto. exists phi, l. split; [left; auto|]. auto.
      * right. split; auto. intros (phi' & l' & [<-|I'] & P' & A' & B').
        -- rewrite El in P'. apply Ok_inj in P'. subst l'. apply Nj. eapply at_index_fun; eauto.
        -- apply N. exists phi', l'. auto.
      * right. split; auto. intros (phi' & l' & [<-|I'] & P' & A' & B').
        -- apply Ni. eapply at_index_fun; eauto.
        -- apply N. exists phi', l'. auto.
Qed.
Definition grid_hit (thetas phis : list R) (i j : nat) : Prop :=
  exists theta k, In theta thetas /\ ti theta = Ok k /\ row_hit k phis i j.
Lemma outer_block : forall phis thetas m m', table m n c ->
  fold_left (fun st theta => let* block := st in let* t := ti theta in
    fold_left (fun st phi => let* block := st in let* p := pi phi in setitem2 block t p 1) phis (Ok block)) thetas (Ok m) = Ok m' ->
  table m' n c /\ forall i j, (i < n)%nat ->
    (cell m' i j = 1 /\ grid_hit thetas phis i j) \/ (cell m' i j = cell m i j /\ ~ grid_hit thetas phis i j).
Proof.
  intros phis thetas. induction thetas as [|theta thetas IH]; intros m m' T E.
  - apply Ok_inj in E. subst m'. split; auto. intros i j Hi. right. split; auto. intros (? & ? & [] & _).
  - cbn [fold_left rbind] in E. destruct (ti theta) as [k|] eqn:Ek; cbn [rbind] in E; [|rewrite fold_left_raise in E; discriminate].
    match type of E with fold_left _ _ ?x = _ => destruct x as [m1|] eqn:E1 end; [|rewrite fold_left_raise in E; discriminate].
    destruct (inner_block k phis m m1 T E1) as (T1 & H1). destruct (IH m1 m' T1 E) as (T' & H).
    split; auto. intros i j Hi. destruct (H i j Hi) as [(V & th' & k' & I' & Q)|(V & N)].
    + left. split; auto. exists th', k'. split; [right; auto|exact Q].
    + rewrite V. destruct (H1 i j Hi) as [(V1 & Q1)|(V1 & N1)].
      * left. split; auto. exists theta, k. split; [left; auto|]. auto.
      * right. split; auto. intros (th' & k' & [<-|I'] & P' & A').
        -- rewrite Ek in P'. apply Ok_inj in P'. subst k'. auto.
        -- apply N. exists th', k'. auto.
Qed.
(** it succeeds when all indices exist *)
Lemma inner_block_ok : forall k phis m i, table m n c -> at_index n k i ->
  (forall phi, In phi phis -> exists l j, pi phi = Ok l /\ at_index c l j) ->
  exists m', fold_left (fun st phi => let* block := st in let* p := pi phi in setitem2 block k p 1) phis (Ok m) = Ok m'.
Proof.
  intros k phis. induction phis as [|phi phis IH]; intros m i T A H; [eexists; reflexivity|].
  destruct (H phi (or_introl eq_refl)) as (l & j & El & Aj). cbn [fold_left rbind]. rewrite El. cbn [rbind].
  assert (E : exists m1, setitem2 m k l 1 = Ok m1).
  { unfold setitem2. assert (Lm : length m = n) by apply T. rewrite (py_index_at m k i []) by (rewrite Lm; auto). cbn [rbind].
    rewrite (py_setitem_set (nth i m []) l 1 j) by (rewrite (table_row m n c) by (auto; apply A); auto). cbn [rbind].
    eexists. apply py_setitem_set with (i := i). rewrite Lm. exact A. }
  destruct E as (m1 & E1). rewrite E1. destruct (setitem2_at _ _ _ _ _ _ _ T E1) as (_ & _ & _ & _ & T1 & _).
  apply (IH m1 i); auto. intros phi' I'. apply H. right; auto.
Qed.
Lemma outer_block_ok : forall phis thetas m, table m n c ->
  (forall theta, In theta thetas -> exists k i, ti theta = Ok k /\ at_index n k i) ->
  (forall phi, In phi phis -> exists l j, pi phi = Ok l /\ at_index c l j) ->
  exists m', fold_left (fun st theta => let* block := st in let* t := ti theta in
    fold_left (fun st phi => let* block := st in let* p := pi phi in setitem2 block t p 1) phis (Ok block)) thetas (Ok m) = Ok m'.
Proof.
  intros phis thetas. induction thetas as [|theta thetas IH]; intros m T H HP; [eexists; reflexivity|].
  destruct (H theta (or_introl eq_refl)) as (k & i & Ek & A). cbn [fold_left rbind]. rewrite Ek. cbn [rbind].
  destruct (inner_block_ok k phis m i T A HP) as (m1 & E1). rewrite E1. destruct (inner_block k phis m m1 T E1) as (T1 & _).
  apply (IH m1); auto. intros th' I'. apply H. right; auto.
Qed.
End Block.

(** ** the grid over Africa *)
Lemma In_linspace : forall a b n x, In x (linspace a b n) <-> exists i, (i < n)%nat /\ x = a + INR i * ((b - a) / INR (n - 1)).
Proof.
  intros a b n x. unfold linspace. rewrite in_map_iff. split.
  - intros (i & <- & H). apply in_seq in H. exists i. split; [lia|reflexivity].
  - intros (i & H & ->). exists i. split; [reflexivity|]. apply in_seq. lia.
Qed.
Lemma INR_99 : INR 99 = 99. Proof. rewrite INR_IZR_INZ. reflexivity. Qed.
Lemma africa_thetas : forall x, In x (map deg2rad (linspace 60 120 100)) <-> exists a, (a < 100)%nat /\ x = africa_colatitude a * PI / 180.
Proof.
  intros x. rewrite in_map_iff. split.
  - intros (y & <- & H). apply In_linspace in H. destruct H as (a & Ha & ->). exists a. split; auto.
    change (100 - 1)%nat with 99%nat. rewrite INR_99. unfold deg2rad, africa_colatitude. field.
  - intros (a & Ha & ->). exists (60 + INR a * ((120 - 60) / INR (100 - 1))). split.
    + change (100 - 1)%nat with 99%nat. rewrite INR_99. unfold deg2rad, africa_colatitude. field.
    + apply In_linspace. eauto.
Qed.
Lemma africa_phis : forall x, In x (map deg2rad (linspace (-30) 30 100)) <-> exists a, (a < 100)%nat /\ x = africa_longitude a * PI / 180.
Proof.
  intros x. rewrite in_map_iff. split.
  - intros (y & <- & H). apply In_linspace in H. destruct H as (a & Ha & ->). exists a. split; auto.
    change (100 - 1)%nat with 99%nat. rewrite INR_99. unfold deg2rad, africa_longitude. field.
  - intros (a & Ha & ->). exists (-30 + INR a * ((30 - -30) / INR (100 - 1))). split.
    + change (100 - 1)%nat with 99%nat. rewrite INR_99. unfold deg2rad, africa_longitude. field.
    + apply In_linspace. eauto.
Qed.
Lemma cell_zeros : forall n c i j, cell (repeat (repeat 0 c) n) i j = 0.
Proof.
  intros. unfold cell. destruct (Nat.lt_ge_cases i n).
  - rewrite nth_repeat_lt by auto. destruct (Nat.lt_ge_cases j c); [apply nth_repeat_lt; auto|]. apply nth_overflow. rewrite repeat_length. lia.
  - rewrite (nth_overflow (repeat _ n)) by (rewrite repeat_length; lia). destruct j; reflexivity.
Qed.
Lemma table_zeros : forall n c, table (repeat (repeat 0 c) n) n c.
Proof. intros. split; [apply repeat_length|]. intros row H. apply repeat_spec in H. subst. apply repeat_length. Qed.

Lemma africa_block_spec : forall lib L block, africa_block lib L = Ok block ->
  table block L (2 * L - 1) /\
  forall i j, (i < L)%nat ->
    let hit := in_africa (fun x => tl_theta_index lib x L) (fun x => tl_phi_index lib x L) L i j in
    (cell block i j = 1 /\ hit) \/ (cell block i j = 0 /\ ~ hit).
Proof.
  intros lib L block E. unfold africa_block in E. cbv zeta in E.
  destruct (outer_block (fun x => tl_theta_index lib x L) (fun x => tl_phi_index lib x L) L (2 * L - 1) _ _ _ _ (table_zeros _ _) E) as (T & H).
  split; auto. intros i j Hi hit. specialize (H i j Hi). rewrite cell_zeros in H.
  set (TH := map deg2rad (linspace 60 120 100)) in *. set (PH := map deg2rad (linspace (-30) 30 100)) in *.
  assert (Q : grid_hit (fun x => tl_theta_index lib x L) (fun x => tl_phi_index lib x L) L (2 * L - 1) TH PH i j <-> hit).
  { unfold hit, in_africa, grid_hit, row_hit. split.
    - intros (theta & k & I1 & E1 & phi & l & I2 & E2 & A1 & A2). apply africa_thetas in I1. apply africa_phis in I2.
      destruct I1 as (a & Ha & ->). destruct I2 as (b & Hb & ->). exists a, b, k, l. auto 10.
    - intros (a & b & k & l & Ha & Hb & E1 & E2 & A1 & A2). exists (africa_colatitude a * PI / 180), k.
      split; [apply africa_thetas; eauto|]. split; [exact E1|]. exists (africa_longitude b * PI / 180), l.
      split; [apply africa_phis; eauto|]. auto. }
  rewrite Q in H. exact H.
Qed.

(** ** noise levels *)
Lemma nth_concat_table : forall m n c i j, table m n c -> (i < n)%nat -> (j < c)%nat -> nth (i * c + j) (List.concat m) 0 = cell m i j.
Proof.
  induction m as [|r m IH]; intros n c i j (L & H) Hi Hj; simpl in L; [lia|].
  assert (Lr : length r = c) by (apply H; left; auto). destruct i; simpl List.concat.
  - simpl. rewrite app_nth1 by lia. reflexivity.
  - rewrite app_nth2 by lia. replace (S i * c + j - length r)%nat with (i * c + j)%nat by lia.
    apply (IH (n - 1)%nat c i j); [|lia|lia]. split; [lia|]. intros; apply H; right; auto.
Qed.
Lemma length_concat_table : forall m n c, table m n c -> length (List.concat m) = (n * c)%nat.
Proof.
  induction m as [|r m IH]; intros n c (L & H); simpl in L; [subst; reflexivity|].
  simpl. rewrite app_length, (H r) by (left; auto). rewrite (IH (n - 1)%nat c) by (split; [lia|intros; apply H; right; auto]).
  destruct n; [lia|]. simpl. replace (n - 0)%nat with n by lia. reflexivity.
Qed.
Lemma table_map : forall m n c (f : R -> R), table m n c -> table (map (map f) m) n c.
Proof.
  intros m n c f (L & H). split; [rewrite map_length; auto|]. intros row Hr. apply in_map_iff in Hr. destruct Hr as (r & <- & Hr).
  rewrite map_length. auto.
Qed.
Lemma cell_map : forall m n c (f : R -> R) i j, table m n c -> (i < n)%nat -> (j < c)%nat -> cell (map (map f) m) i j = f (cell m i j).
Proof.
  intros m n c f i j T Hi Hj. unfold cell. assert (L := proj1 T). rewrite (nth_map_in _ _ _ _ []) by lia.
  rewrite (nth_map_in _ _ _ _ 0); [reflexivity|]. rewrite (table_row m n c); auto.
Qed.
Lemma table_lengths : forall m n c, table m n c -> map (@length R) m = repeat c n.
Proof.
  induction m as [|r m IH]; intros n c (L & H); simpl in L; subst n; [reflexivity|]. simpl. rewrite (H r) by (left; auto). f_equal.
  apply IH. split; auto. intros; apply H; right; auto.
Qed.
Lemma scale_block_table : forall sig block n c k, table sig n c -> table block n c ->
  exists m, scale_block sig block k = Ok m /\ table m n c /\
  forall i j, (i < n)%nat -> (j < c)%nat -> cell m i j = if Req_EM_T (cell block i j) 1 then cell sig i j * k else cell sig i j.
Proof.
  intros sig block n c k TS TB. unfold scale_block. rewrite (table_lengths sig n c), (table_lengths block n c) by auto.
  destruct (list_eq_dec Nat.eq_dec (repeat c n) (repeat c n)); [|congruence]. eexists. split; [reflexivity|].
  assert (L1 := proj1 TS). assert (L2 := proj1 TB). split.
  - apply table_nth; [rewrite map2_length; congruence|]. intros i Hi. rewrite (nth_map2 _ _ _ _ [] []) by congruence.
    rewrite map2_length; rewrite ?(table_row sig n c), ?(table_row block n c); auto.
  - intros i j Hi Hj. unfold cell. rewrite (nth_map2 _ _ _ _ [] []) by congruence.
    rewrite (nth_map2 _ _ _ _ 0 0); [reflexivity|rewrite (table_row sig n c); auto|].
    rewrite (table_row sig n c), (table_row block n c); auto.
Qed.
Lemma patch_area_pos : forall L t, (t < L)%nat -> 0 < patch_area L t.
Proof.
  intros L t H. unfold patch_area. destruct (strip_order L t H) as ((A & B) & D). assert (P := PI_RGT_0). apply Rmult_lt_0_compat.
  - apply Rdiv_lt_0_compat; [lra|apply lt_0_INR; lia].
  - assert (cos (strip_bottom L t) < cos (strip_top L t)) by (apply cos_decreasing_1; lra). lra.
Qed.
Lemma areas_table : forall L, (1 <= L)%nat -> exists areas, calc_pixel_areas (mw_thetas L) (mw_phis L) 1 = Ok areas /\
  table areas L (2 * L - 1) /\ forall i j, (i < L)%nat -> (j < 2 * L - 1)%nat -> cell areas i j = patch_area L i.
Proof.
  intros L HL. eexists. split; [apply areas_closed; auto|]. split.
  - split; [rewrite map_length, seq_length; auto|]. intros row H. apply in_map_iff in H. destruct H as (t & <- & _). apply repeat_length.
  - intros i j Hi Hj. unfold cell. rewrite (nth_map_in _ _ _ _ 0%nat) by (rewrite seq_length; auto). rewrite seq_nth by auto.
    rewrite nth_repeat_lt by auto. unfold patch_area. change (0 + i)%nat with i. field. apply not_0_INR. lia.
Qed.
