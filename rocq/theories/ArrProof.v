(** Lemmas about the heap of arrays. *)
From Coq Require Import List ZArith Lia Bool Reals Lra String.
From Coquelicot Require Import Coquelicot.
From Verif Require Import PyBase PyBaseFacts CVec RSort Thresh ThreshProof Utils Quad Prior Arrays ArrSpec.
Import ListNotations.
Notation length := List.length.
Open Scope R_scope.

(** ** lists *)
Lemma upd_length : forall {A} (l : list A) i a, length (upd l i a) = length l.
Proof. induction l as [|x l IH]; intros [|i] a; cbn; auto. Qed.
Lemma nth_upd : forall {A} (l : list A) i a k d, nth k (upd l i a) d = if ((k =? i)%nat && (i <? length l)%nat)%bool then a else nth k l d.
Proof.
  induction l as [|x l IH]; intros [|i] a [|k] d; cbn [upd nth List.length]; try reflexivity.
  - cbn. destruct (k =? i)%nat; reflexivity.
  - rewrite IH. reflexivity.
Qed.
Lemma upd_app_r : forall {A} (h t : list A) k a, upd (h ++ t) (length h + k) a = h ++ upd t k a.
Proof. induction h as [|x h IH]; intros t k a; cbn; [reflexivity|]. rewrite IH. reflexivity. Qed.
Lemma upd_app_l : forall {A} (h t : list A) k a, (k < length h)%nat -> upd (h ++ t) k a = upd h k a ++ t.
Proof. induction h as [|x h IH]; intros t [|k] a H; cbn in *; try lia; [reflexivity|]. rewrite IH by lia. reflexivity. Qed.
Lemma scatter_length : forall idx buf v, length (scatter buf idx v) = length buf.
Proof. induction idx as [|i idx IH]; intros buf [|x v]; cbn; auto. rewrite IH, upd_length. reflexivity. Qed.
Lemma scatter_seq_gen : forall v pre buf, length v = length buf -> scatter (pre ++ buf) (seq (length pre) (length buf)) v = pre ++ v.
Proof.
  induction v as [|x v IH]; intros pre [|y buf] H; try discriminate; cbn [List.length seq scatter]; [reflexivity|].
  assert (E : upd (pre ++ y :: buf) (length pre) x = (pre ++ [x]) ++ buf).
  { rewrite <- (Nat.add_0_r (length pre)), upd_app_r. cbn. rewrite <- app_assoc. reflexivity. }
  rewrite E. replace (S (length pre)) with (length (pre ++ [x])) by (rewrite app_length; cbn; lia).
  rewrite IH by (cbn in H; lia). rewrite <- app_assoc. reflexivity.
Qed.
Lemma scatter_seq : forall buf v, length v = length buf -> scatter buf (seq 0 (length buf)) v = v.
Proof. intros buf v H. apply (scatter_seq_gen v [] buf H). Qed.
Lemma map_nth_seq0 : forall {A} (v : list A) d, map (fun i => nth i v d) (seq 0 (length v)) = v.
Proof.
  intros A v d. apply nth_ext with (d := d) (d' := d); rewrite ?map_length, ?seq_length; auto.
  intros i Hi. rewrite (nth_indep _ d (nth 0 v d)) by (rewrite map_length, seq_length; exact Hi). rewrite (map_nth (fun i => nth i v d)).
  rewrite seq_nth by exact Hi. reflexivity.
Qed.
(** what a scatter does to each position *)
Lemma scatter_other : forall idx buf v k d, ~ In k idx -> nth k (scatter buf idx v) d = nth k buf d.
Proof.
  induction idx as [|i idx IH]; intros buf [|x v] k d H; cbn [scatter]; try reflexivity. rewrite IH by (intros Q; apply H; right; auto).
  rewrite nth_upd. destruct (Nat.eqb_spec k i) as [->|]; [exfalso; apply H; left; auto|reflexivity].
Qed.
Lemma scatter_rd : forall idx buf v d, NoDup idx -> (forall i, In i idx -> (i < length buf)%nat) -> length v = length idx ->
  map (fun i => nth i (scatter buf idx v) d) idx = v.
Proof.
  induction idx as [|i idx IH]; intros buf v d ND Hr Hl; destruct v as [|x v]; try discriminate; [reflexivity|].
  cbn [map scatter]. inversion ND; subst. f_equal.
  - rewrite scatter_other by assumption. rewrite nth_upd, Nat.eqb_refl. destruct (Nat.ltb_spec i (length buf)); [reflexivity|].
    specialize (Hr i (or_introl eq_refl)). lia.
  - apply IH; auto. intros j Hj. rewrite upd_length. apply Hr. right; auto.
Qed.

(** ** heaps *)
Lemma rd_app : forall h t r, (r_cell r < length h)%nat -> rd (h ++ t) r = rd h r.
Proof. intros h t r Hr. unfold rd, cell. rewrite app_nth1 by exact Hr. reflexivity. Qed.
Lemma rd_temp : forall h t k idx, rd (h ++ t) (mkRef (length h + k) idx) = map (fun i => nth i (nth k t []) (RtoC 0)) idx.
Proof. intros h t k idx. unfold rd, cell. cbn [r_cell r_idx]. rewrite app_nth2_plus. reflexivity. Qed.
Lemma wr_temp : forall h t k idx v, wr (h ++ t) (mkRef (length h + k) idx) v = h ++ upd t k (scatter (nth k t []) idx v).
Proof. intros h t k idx v. unfold wr, cell. cbn [r_cell r_idx]. rewrite app_nth2_plus, upd_app_r. reflexivity. Qed.
Lemma alloc_temp : forall h t v, alloc v (h ++ t) = (Ok (mkRef (length h + length t) (seq 0 (length v))), h ++ (t ++ [v])).
Proof. intros h t v. unfold alloc. rewrite app_length, <- app_assoc. reflexivity. Qed.
Lemma vabs_RtoC : forall x, map fst (map RtoC (vabs x)) = vabs x.
Proof. intros x. rewrite map_map. apply map_id. Qed.
Lemma map_fst_RtoC : forall x : list R, map fst (map RtoC x) = x.
Proof. intros x. rewrite map_map. apply map_id. Qed.
Lemma zero_modulus_same : forall x, map2 (fun a (b : bool) => if b then RtoC 0 else a) x (map (fun a => Reqb (fst a) 0) (map RtoC (vabs x))) = x.
Proof.
  induction x as [|z x IH]; [reflexivity|]. cbn [vabs map map2]. unfold vabs in IH. rewrite IH. f_equal. cbn [fst RtoC].
  destruct (Reqb_spec (Cmod z) 0) as [E|]; [|reflexivity]. symmetry. apply Cmod_eq_0. exact E.
Qed.
Lemma sign_vec_alt : forall x, sign_vec x = map2 Cdiv x (map2 (fun a (b : bool) => if b then RtoC 1 else a) (map RtoC (vabs x)) (map (fun a => Reqb (fst a) 0) (map RtoC (vabs x)))).
Proof.
  induction x as [|z x IH]; [reflexivity|]. unfold sign_vec, vabs in *. cbn [map map2] in *. rewrite IH. f_equal. cbn [fst RtoC].
  destruct (Reqb_spec (Cmod z) 0) as [E|E]; [|reflexivity]. apply Cmod_eq_0 in E. subst. reflexivity.
Qed.

(** ** evaluation steps on temporaries *)
Lemma bind_ok : forall {A B} (m : H A) (k : A -> H B) h a h1, m h = (Ok a, h1) -> hbind m k h = k a h1.
Proof. intros A B m k h a h1 E. unfold hbind. rewrite E. reflexivity. Qed.
Lemma bind_raise : forall {A B} (m : H A) (k : A -> H B) h e h1, m h = (Raise e, h1) -> hbind m k h = (Raise e, h1).
Proof. intros A B m k h a h1 E. unfold hbind. rewrite E. reflexivity. Qed.
Lemma values_temp : forall h t k n v, nth k t [] = v -> n = length v -> values (mkRef (length h + k) (seq 0 n)) (h ++ t) = (Ok v, h ++ t).
Proof. intros h t k n v E ->. unfold values. rewrite rd_temp, E, map_nth_seq0. reflexivity. Qed.
Lemma np_abs_temp : forall h t k n v, nth k t [] = v -> n = length v ->
  np_abs (mkRef (length h + k) (seq 0 n)) (h ++ t) = (Ok (mkRef (length h + length t) (seq 0 n)), h ++ (t ++ [map RtoC (vabs v)])).
Proof.
  intros h t k n v E ->. unfold np_abs. erewrite bind_ok; [|apply values_temp; [exact E|reflexivity]]. rewrite alloc_temp.
  unfold vabs. rewrite !map_length. reflexivity.
Qed.
Lemma set_where_temp : forall h t k n v m c, nth k t [] = v -> n = length v -> length m = length v ->
  set_where (mkRef (length h + k) (seq 0 n)) m c (h ++ t) = (Ok tt, h ++ upd t k (map2 (fun a (b : bool) => if b then c else a) v m)).
Proof.
  intros h t k n v m c E -> Lm. unfold set_where. erewrite bind_ok; [|apply values_temp; [exact E|reflexivity]].
  unfold hbind, hlift, mask_assign. rewrite Lm, Nat.eqb_refl. rewrite wr_temp, E, scatter_seq by (rewrite map2_length; auto). reflexivity.
Qed.
Lemma set_where_bad : forall h t k n v m c, nth k t [] = v -> n = length v -> length m <> length v ->
  set_where (mkRef (length h + k) (seq 0 n)) m c (h ++ t) = (Raise IndexError, h ++ t).
Proof.
  intros h t k n v m c E -> Lm. unfold set_where. erewrite bind_ok; [|apply values_temp; [exact E|reflexivity]].
  unfold hbind, hlift, mask_assign. rewrite (proj2 (Nat.eqb_neq _ _)) by auto. reflexivity.
Qed.
Lemma upd_same : forall (t : list vec) k v, nth k t [] = v -> upd t k v = t.
Proof.
  induction t as [|x t IH]; intros [|k] v E; cbn in *; try reflexivity; [subst; reflexivity|]. rewrite IH by exact E. reflexivity.
Qed.
Lemma upd_last : forall {A} (t : list A) v w, upd (t ++ [v]) (length t) w = t ++ [w].
Proof. intros A t v w. rewrite <- (Nat.add_0_r (length t)), upd_app_r. reflexivity. Qed.
Lemma nth_last : forall (t : list vec) v, nth (length t) (t ++ [v]) [] = v.
Proof. intros t v. rewrite app_nth2, Nat.sub_diag by lia. reflexivity. Qed.

(** evaluation of _sign on a temporary *)
Definition ones (x : vec) : vec := map2 (fun a (b : bool) => if b then RtoC 1 else a) (map RtoC (vabs x)) (map (fun a => Reqb (fst a) 0) (map RtoC (vabs x))).
Lemma len_RtoC_vabs : forall x, length (map RtoC (vabs x)) = length x.
Proof. intros x. unfold vabs. rewrite !map_length. reflexivity. Qed.
Lemma ones_length : forall x, length (ones x) = length x.
Proof. intros x. unfold ones. rewrite map2_length by (rewrite !map_length; reflexivity). apply len_RtoC_vabs. Qed.
Lemma sign_length : forall x, length (sign_vec x) = length x.
Proof. intros x. rewrite sign_vec_alt. fold (ones x). rewrite map2_length; auto. rewrite ones_length; auto. Qed.
Lemma h_sign_eval : forall h t k n x, (k < length t)%nat -> nth k t [] = x -> n = length x ->
  h_sign (mkRef (length h + k) (seq 0 n)) (h ++ t) =
  (Ok (mkRef (length h + S (length t)) (seq 0 n)), h ++ (t ++ [ones x; sign_vec x])).
Proof.
  intros h t k n x Hk Ex Hn. pose proof (len_RtoC_vabs x) as La. pose proof (ones_length x) as Lo. unfold h_sign.
  erewrite bind_ok; [|apply np_abs_temp; eassumption].
  erewrite bind_ok; [|apply values_temp; [apply nth_last|congruence]].
  erewrite bind_ok; [|eapply set_where_temp; [rewrite app_nth1 by exact Hk; exact Ex|exact Hn|rewrite map_length; exact La]].
  rewrite zero_modulus_same. rewrite upd_same by (rewrite app_nth1 by exact Hk; exact Ex).
  erewrite bind_ok; [|eapply set_where_temp; [apply nth_last|congruence|rewrite map_length; reflexivity]].
  fold (ones x). rewrite upd_last.
  erewrite bind_ok; [|apply values_temp; [rewrite app_nth1 by exact Hk; exact Ex|exact Hn]].
  erewrite bind_ok; [|apply values_temp; [apply nth_last|congruence]].
  unfold np_div. rewrite np_bin_same by congruence. unfold hbind, hlift. rewrite alloc_temp.
  assert (Es : map2 Cdiv x (ones x) = sign_vec x) by (symmetry; apply sign_vec_alt). rewrite Es, sign_length, app_length, <- app_assoc, Nat.add_1_r, Hn. reflexivity.
Qed.

(** ** soft *)
Lemma thr_of_app : forall h t T, thr_valid h T -> thr_of T (h ++ t) = (Ok (thr_val h T), h ++ t).
Proof. intros h t [c|r] Hv; [reflexivity|]. cbn in Hv. unfold thr_of, hbind, values, hret. rewrite rd_app by exact Hv. reflexivity. Qed.
Lemma preserves_intro : forall h t, preserves h (h ++ t).
Proof. intros h t. exists t. reflexivity. Qed.
Lemma preserves_refl : forall h, preserves h h.
Proof. intros h. exists []. rewrite app_nil_r. reflexivity. Qed.
Lemma preserves_trans : forall a b c, preserves a b -> preserves b c -> preserves a c.
Proof. intros a b c [t ->] [u ->]. exists (t ++ u). apply app_assoc_reverse. Qed.

Lemma h_soft_eval : forall h X T, (r_cell X < length h)%nat -> thr_valid h T ->
  let '(out, h') := h_soft X T h in
  preserves h h' /\
  match soft (rd h X) (thr_val h T) with
  | Ok v => exists t, out = Ok t /\ (length h <= r_cell t < length h')%nat /\ rd h' t = v /\ cell h' (r_cell t) = v
  | Raise e => out = Raise e
  end.
Proof.
  intros h X T HX HT. set (x := rd h X). unfold h_soft, soft.
  erewrite bind_ok; [|unfold np_array; erewrite bind_ok by reflexivity; rewrite <- (app_nil_r h) at 2; apply alloc_temp]. fold x. cbn [app List.length].
  erewrite bind_ok; [|apply (h_sign_eval h [x] 0 (length x) x); cbn; auto]. cbn [app List.length].
  erewrite bind_ok; [|apply (np_abs_temp h _ 0 (length x) x); cbn; auto]. cbn [app List.length].
  erewrite bind_ok; [|apply (values_temp h _ 3); [reflexivity|symmetry; apply len_RtoC_vabs]].
  erewrite bind_ok; [|apply thr_of_app; exact HT]. cbn [nth]. rewrite map_fst_RtoC.
  destruct (thr_bin Rminus (vabs x) (thr_val h T)) as [d|e] eqn:Ed; cbn [rbind]; [|unfold hbind, hlift; split; [apply preserves_intro|reflexivity]].
  erewrite bind_ok by reflexivity. erewrite bind_ok; [|apply alloc_temp]. cbn [app List.length].
  erewrite bind_ok; [|apply (values_temp h _ 2); [reflexivity|symmetry; apply sign_length]].
  erewrite bind_ok; [|apply (values_temp h _ 4); [reflexivity|reflexivity]]. cbn [nth].
  destruct (np_mul (sign_vec x) (map RtoC d)) as [tt0|e] eqn:Et; cbn [rbind]; [|unfold hbind, hlift; split; [apply preserves_intro|reflexivity]].
  erewrite bind_ok by reflexivity. erewrite bind_ok; [|apply alloc_temp]. cbn [app List.length].
  erewrite bind_ok; [|apply (np_abs_temp h _ 0 (length x) x); cbn; auto]. cbn [app List.length].
  erewrite bind_ok; [|apply (values_temp h _ 6); [reflexivity|symmetry; apply len_RtoC_vabs]].
  erewrite bind_ok; [|apply thr_of_app; exact HT]. cbn [nth]. rewrite map_fst_RtoC.
  destruct (thr_bin Rleb (vabs x) (thr_val h T)) as [m|e] eqn:Em; cbn [rbind]; [|unfold hbind, hlift; split; [apply preserves_intro|reflexivity]].
  erewrite bind_ok by reflexivity. unfold mask_assign.
  destruct (Nat.eqb_spec (length tt0) (length m)) as [L|L].
  - erewrite bind_ok; [|apply (set_where_temp h _ 5 (length tt0) tt0 m); auto]. unfold hret. cbn [upd]. split; [apply preserves_intro|].
    eexists. split; [reflexivity|]. cbn [r_cell]. rewrite app_length. cbn [List.length]. split; [lia|]. split.
    + rewrite rd_temp. cbn [nth]. replace (length tt0) with (length (map2 (fun a (b : bool) => if b then RtoC 0 else a) tt0 m)) by (apply map2_length; exact L). apply map_nth_seq0.
    + unfold cell. rewrite app_nth2_plus. reflexivity.
  - erewrite bind_raise; [|apply (set_where_bad h _ 5 (length tt0) tt0 m); auto]. split; [apply preserves_intro|reflexivity].
Qed.

(** ** writing through a reference *)
Lemma rd_length : forall h r, length (rd h r) = length (r_idx r).
Proof. intros h r. apply map_length. Qed.
Lemma wr_length : forall h r v, length (wr h r v) = length h.
Proof. intros. apply upd_length. Qed.
Lemma cell_wr : forall h r v c, (r_cell r < length h)%nat -> cell (wr h r v) c = if (c =? r_cell r)%nat then scatter (cell h c) (r_idx r) v else cell h c.
Proof.
  intros h r v c Hr. unfold wr, cell. rewrite nth_upd. destruct (Nat.eqb_spec c (r_cell r)) as [->|]; [|reflexivity].
  destruct (Nat.ltb_spec (r_cell r) (length h)); [reflexivity|lia].
Qed.
Lemma rd_wr_same : forall h r v, valid_array h r -> length v = length (r_idx r) -> rd (wr h r v) r = v.
Proof. intros h r v [A [B D]] L. unfold rd. rewrite cell_wr, Nat.eqb_refl by exact A. apply scatter_rd; auto. Qed.
Lemma rd_wr_other : forall h r v s, valid_array h r -> disjoint r s -> rd (wr h r v) s = rd h s.
Proof.
  intros h r v s [A _] Dj. unfold rd. rewrite cell_wr by exact A. destruct (Nat.eqb_spec (r_cell s) (r_cell r)) as [E|]; [|reflexivity].
  destruct Dj as [N|N]; [congruence|]. apply map_ext_in. intros i Hi. apply scatter_other. intros Q. exact (N i Q Hi).
Qed.
Lemma wr_app : forall h t r v, (r_cell r < length h)%nat -> wr (h ++ t) r v = wr h r v ++ t.
Proof. intros h t r v Hr. unfold wr, cell. rewrite app_nth1, upd_app_l by exact Hr. reflexivity. Qed.

(** ** hard *)
Lemma values_old : forall h t r, (r_cell r < length h)%nat -> values r (h ++ t) = (Ok (rd h r), h ++ t).
Proof. intros h t r Hr. unfold values. rewrite rd_app by exact Hr. reflexivity. Qed.
Lemma np_abs_old : forall h t r, (r_cell r < length h)%nat ->
  np_abs r (h ++ t) = (Ok (mkRef (length h + length t) (seq 0 (length (rd h r)))), h ++ (t ++ [map RtoC (vabs (rd h r))])).
Proof.
  intros h t r Hr. unfold np_abs. erewrite bind_ok; [|apply values_old; exact Hr]. rewrite alloc_temp. rewrite len_RtoC_vabs. reflexivity.
Qed.
Lemma h_hard_eval : forall h X T, (r_cell X < length h)%nat ->
  let '(out, h') := h_hard X T h in
  match hard (rd h X) T with
  | Ok v => out = Ok X /\ length v = length (r_idx X) /\ exists t, h' = wr h X v ++ t
  | Raise e => out = Raise e /\ preserves h h'
  end.
Proof.
  intros h X T HX. set (x := rd h X). unfold h_hard, hard.
  erewrite bind_ok; [|rewrite <- (app_nil_r h) at 1; apply np_abs_old; exact HX]. fold x. cbn [app List.length].
  erewrite bind_ok; [|apply (values_temp h _ 0); [reflexivity|symmetry; apply len_RtoC_vabs]]. cbn [nth].
  rewrite map_fst_RtoC.
  erewrite bind_ok; [|apply alloc_temp]. cbn [app List.length].
  erewrite bind_ok; [|apply values_old; exact HX]. fold x.
  erewrite bind_ok; [|apply (values_temp h _ 1); reflexivity]. cbn [nth]. rewrite map_fst_RtoC.
  destruct (py_index (rsort (vabs x)) (- Rtrunc (T * INR (length x)))) as [tv|e]; cbn [rbind];
    [|unfold hbind, hlift; split; [reflexivity|apply preserves_intro]].
  erewrite bind_ok by reflexivity.
  erewrite bind_ok; [|apply np_abs_old; exact HX]. fold x. cbn [app List.length].
  erewrite bind_ok; [|apply (values_temp h _ 2); [reflexivity|symmetry; apply len_RtoC_vabs]]. cbn [nth]. rewrite map_map. cbn [fst RtoC].
  unfold set_where. unfold hbind at 1 2. rewrite values_old by exact HX. fold x. unfold mask_assign.
  assert (L : length (map (fun a => Rltb a tv) (vabs x)) = length x) by (unfold vabs; rewrite !map_length; reflexivity).
  rewrite L, Nat.eqb_refl. unfold hbind, hlift, hret. split; [reflexivity|]. rewrite map2_length by (symmetry; exact L). split; [apply rd_length|].
  rewrite wr_app by exact HX. eexists. reflexivity.
Qed.

(** ** T *= w *)
Lemma h_imul_eval : forall h T w, thr_valid h T ->
  let '(out, h') := h_imul T w h in
  match thr_imul (thr_val h T) w with
  | Raise e => out = Raise e /\ h' = h
  | Ok (TScal _) => False
  | Ok (TVec v) =>
      match T with
      | HScal _ => h' = h ++ [map RtoC v] /\ out = Ok (HArr (mkRef (length h) (seq 0 (length v))))
      | HArr r => h' = wr h r (map RtoC v) /\ out = Ok (HArr r) /\ length v = length (r_idx r)
      end
  end.
Proof.
  intros h [t|r] w Hv; unfold h_imul.
  - cbn [thr_val thr_imul]. erewrite bind_ok by reflexivity. unfold hret. split; [reflexivity|]. rewrite !map_length. reflexivity.
  - erewrite bind_ok by reflexivity. cbn [thr_val]. pose proof (rd_length h r) as Lr.
    destruct (thr_imul (TVec (map fst (rd h r))) w) as [[t|v]|e] eqn:E; cbn [thr_imul] in E.
    + destruct (Nat.eqb _ _); [discriminate|]. destruct w as [|? [|]]; discriminate.
    + unfold hbind, hlift. split; [reflexivity|]. split; [reflexivity|]. rewrite map_length in E. match type of E with (if ?b then _ else _) = _ => destruct b eqn:L end; [apply Nat.eqb_eq in L|].
      * injection E as <-. rewrite map2_length by (rewrite map_length; exact L). rewrite map_length. exact Lr.
      * destruct w as [|? [|]]; try discriminate. injection E as <-. rewrite !map_length. exact Lr.
    + unfold hbind, hlift. split; reflexivity.
Qed.
Lemma thr_imul_vec : forall T w, match thr_imul T w with Ok (TScal _) => False | _ => True end.
Proof. intros [t|ts] w; cbn; auto. destruct (Nat.eqb _ _); auto. destruct w as [|? [|]]; auto. Qed.

(** ** computations that only allocate *)
Lemma preserves_length : forall h h', preserves h h' -> (length h <= length h')%nat.
Proof. intros h h' [t ->]. rewrite app_length. lia. Qed.
Lemma allocated_mono : forall h h' r, preserves h h' -> allocated h r -> allocated h' r.
Proof. intros h h' r Hp Ha. pose proof (preserves_length _ _ Hp). unfold allocated in *. lia. Qed.
Lemma rd_mono : forall h h' r, preserves h h' -> allocated h r -> rd h' r = rd h r.
Proof. intros h h' r [t ->] Ha. apply rd_app. exact Ha. Qed.

Lemma hspec_bind : forall {A B} (m : H A) (k : A -> H B) h (Q : res B -> aheap -> Prop),
  hspec m h (fun o h1 => match o with Ok a => hspec (k a) h1 Q | Raise e => Q (Raise e) h1 end) -> hspec (hbind m k) h Q.
Proof.
  intros A B m k h Q. unfold hspec, hbind. destruct (m h) as [[a|e] h1]; cbn [fst snd]; intros [Hp Hq].
  - destruct Hq as [Hp2 Hq]. split; [eapply preserves_trans; eassumption|exact Hq].
  - split; assumption.
Qed.
Lemma hspec_conseq : forall {A} (m : H A) h (Q Q' : res A -> aheap -> Prop), hspec m h Q -> (forall o h', preserves h h' -> Q o h' -> Q' o h') -> hspec m h Q'.
Proof. intros A m h Q Q' [Hp Hq] Hc. split; auto. Qed.
Lemma hspec_let : forall {B} (m : H aref) (k : aref -> H B) h old v (Q : res B -> aheap -> Prop), hspec m h (gives h old v) ->
  (forall e h1, v = Raise e -> preserves h h1 -> Q (Raise e) h1) ->
  (forall x r h1, v = Ok x -> preserves h h1 -> allocated h1 r -> rd h1 r = x -> (length h <= r_cell r)%nat \/ In (r_cell r) old -> hspec (k r) h1 Q) ->
  hspec (hbind m k) h Q.
Proof.
  intros B m k h old v Q Hm He Hk. apply hspec_bind. eapply hspec_conseq; [exact Hm|]. intros o h' Hp Hg. unfold gives in Hg. destruct v as [x|e].
  - destruct Hg as [r [-> [Ha [Hr Hf]]]]. eapply Hk; eauto.
  - subst o. apply He; auto.
Qed.
Lemma hspec_lift : forall {A B} (r : res A) (k : A -> H B) h (Q : res B -> aheap -> Prop),
  (forall e, r = Raise e -> Q (Raise e) h) -> (forall a, r = Ok a -> hspec (k a) h Q) -> hspec (let! a := hlift r in k a) h Q.
Proof. intros A B [a|e] k h Q He Hk; [apply Hk; reflexivity|]. split; [apply preserves_refl|]. apply He. reflexivity. Qed.
Lemma hspec_values : forall {B} r (k : vec -> H B) h (Q : res B -> aheap -> Prop), hspec (k (rd h r)) h Q -> hspec (let! v := values r in k v) h Q.
Proof. intros B r k h Q Hk. exact Hk. Qed.
Lemma hspec_ret : forall {A} (a : A) h (Q : res A -> aheap -> Prop), Q (Ok a) h -> hspec (hret a) h Q.
Proof. intros A a h Q Hq. split; [apply preserves_refl|exact Hq]. Qed.
Lemma rd_full : forall h v, rd (h ++ [v]) (mkRef (length h) (seq 0 (length v))) = v.
Proof. intros h v. unfold rd, cell. cbn [r_cell r_idx]. rewrite nth_last. apply map_nth_seq0. Qed.
Lemma alloc_spec : forall v h, hspec (alloc v) h (gives h [] (Ok v)).
Proof.
  intros v h. unfold hspec, alloc. cbn [fst snd]. split; [apply preserves_intro|]. eexists. split; [reflexivity|]. unfold allocated. cbn [r_cell].
  rewrite app_length. cbn [List.length]. split; [lia|]. split; [apply rd_full|]. left. lia.
Qed.
Lemma h_bin_spec : forall f a b h, hspec (h_bin f a b) h (gives h [] (f (rd h a) (rd h b))).
Proof.
  intros f a b h. unfold h_bin. apply hspec_values, hspec_values. apply hspec_lift; [intros e ->; reflexivity|]. intros z ->. apply alloc_spec.
Qed.
Lemma h_un_spec : forall f a h, hspec (h_un f a) h (gives h [] (Ok (f (rd h a)))).
Proof. intros f a h. unfold h_un. apply hspec_values. apply alloc_spec. Qed.
Lemma h_soft_spec : forall X T h, allocated h X -> thr_valid h T -> hspec (h_soft X T) h (gives h [] (soft (rd h X) (thr_val h T))).
Proof.
  intros X T h HX HT. pose proof (h_soft_eval h X T HX HT) as E. unfold hspec, gives. destruct (h_soft X T h) as [o h']. destruct E as [Hp E]. cbn [fst snd].
  split; [exact Hp|]. destruct (soft (rd h X) (thr_val h T)) as [v|e]; [|exact E]. destruct E as [t [Eo [Hc [Hr _]]]]. exists t. unfold allocated.
  split; [exact Eo|]. split; [lia|]. split; [exact Hr|]. left. lia.
Qed.

Lemma thr_val_mono : forall h h' T, preserves h h' -> thr_valid h T -> thr_valid h' T /\ thr_val h' T = thr_val h T.
Proof.
  intros h h' [t|r] Hp Hv; [split; exact I + reflexivity|]. cbn in *. split; [eapply allocated_mono; eauto|]. rewrite (rd_mono h h' r Hp Hv). reflexivity.
Qed.
Lemma gives_weaken : forall h old old' v o h', gives h old v o h' -> incl old old' -> gives h old' v o h'.
Proof. intros h old old' [x|e] o h' Hg Hi; [|exact Hg]. destruct Hg as [r [A [B [D [F|F]]]]]; exists r; repeat split; auto. Qed.
Lemma gives_shift : forall h h1 old old' v o h', preserves h h1 -> gives h1 old v o h' ->
  (forall c, In c old -> (length h <= c)%nat \/ In c old') -> gives h old' v o h'.
Proof.
  intros h h1 old old' [x|e] o h' Hp Hg Hi; [|exact Hg]. pose proof (preserves_length _ _ Hp). destruct Hg as [r [A [B [D [F|F]]]]]; exists r; repeat split; auto. left. lia.
Qed.
Lemma h_proxf_implements : forall (P : aheap -> Prop) p pp,
  (forall h h', P h -> preserves h h' -> P h') ->
  (forall h, P h -> thr_valid h (hp_T p) /\ thr_val h (hp_T p) = p_T pp) ->
  hp_setting p = p_setting pp ->
  implements P (hp_fwd p) (p_fwd pp) -> implements P (hp_adj p) (p_adj pp) ->
  implements P (h_proxf p) (proxf pp).
Proof.
  intros P p pp Pc HT Es Hf Ha h X Ph HX. unfold h_proxf, proxf. rewrite Es. destruct (String.eqb (p_setting pp) "synthesis").
  - unfold proxf_synthesis. destruct (HT h Ph) as [Hv <-]. eapply hspec_conseq; [apply h_soft_spec; auto|]. intros o h' _ Hg. eapply gives_weaken; [exact Hg|]. intros c [].
  - unfold proxf_analysis. eapply hspec_let; [apply Ha; auto|intros e h1 -> _; reflexivity|]. intros a ra h1 Ea Hp1 A1 R1 _. rewrite Ea. cbn [rbind].
    pose proof (Pc _ _ Ph Hp1) as Ph1. destruct (HT h1 Ph1) as [Hv1 Ht1].
    eapply hspec_let; [apply h_soft_spec; auto|rewrite R1, Ht1; intros e h2 -> _; reflexivity|]. rewrite R1, Ht1. intros s rs h2 E2 Hp2 A2 R2 _. rewrite E2. cbn [rbind].
    pose proof (Pc _ _ Ph1 Hp2) as Ph2. assert (Hp02 : preserves h h2) by (eapply preserves_trans; eauto).
    eapply hspec_let; [apply Ha; [exact Ph2|eapply allocated_mono; eauto]|rewrite (rd_mono h h2 X Hp02 HX), Ea; discriminate|].
    rewrite (rd_mono h h2 X Hp02 HX), Ea. intros a2 ra2 h3 E3 Hp3 A3 R3 _. injection E3 as <-. cbn [rbind].
    assert (R2' : rd h3 rs = s) by (rewrite (rd_mono h2 h3 rs Hp3 A2); exact R2).
    eapply hspec_let; [apply h_bin_spec|rewrite R2', R3; intros e h4 -> _; reflexivity|]. rewrite R2', R3. intros d rd4 h4 E4 Hp4 A4 R4 _. rewrite E4. cbn [rbind].
    assert (Ph4 : P h4) by eauto. assert (Hp04 : preserves h h4) by (eauto using preserves_trans).
    eapply hspec_let; [apply Hf; auto|rewrite R4; intros e h5 -> _; reflexivity|]. rewrite R4. intros y ry h5 E5 Hp5 A5 R5 _. rewrite E5. cbn [rbind].
    assert (Hp05 : preserves h h5) by (eauto using preserves_trans).
    eapply hspec_conseq; [apply h_bin_spec|]. rewrite (rd_mono h h5 X Hp05 HX), R5. intros o h6 _ Hg. eapply gives_shift; [exact Hp05|exact Hg|]. intros c [].
Qed.
Lemma h_prior_spec : forall X h, allocated h X -> hspec (h_prior X) h (fun o _ => o = Ok (L1_prior (rd h X))).
Proof.
  intros X h HX. unfold h_prior, np_abs. apply hspec_bind. apply hspec_values.
  eapply hspec_conseq; [apply alloc_spec|]. intros o h' Hp [r [-> [A [Er _]]]]. apply hspec_values. rewrite Er, map_fst_RtoC. apply hspec_ret. reflexivity.
Qed.
Lemma preserves_iff : forall h h', preserves h h' <-> nothing_written h h'.
Proof.
  intros h h'. split.
  - intros [t ->] c v E. rewrite nth_error_app1; [exact E|]. apply nth_error_Some. congruence.
  - revert h'. induction h as [|x h IH]; intros h' Hn; [exists h'; reflexivity|].
    pose proof (Hn 0%nat x eq_refl) as E0. destruct h' as [|y h']; [discriminate|]. injection E0 as ->.
    destruct (IH h') as [t ->]; [|exists t; reflexivity]. intros c v E. exact (Hn (S c) v E).
Qed.
