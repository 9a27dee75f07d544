(** The heap-level runs simulate the value-level runs. *)
From Coq Require Import List ZArith Lia Bool Reals Lra String.
From Coquelicot Require Import Coquelicot.
From Verif Require Import PyBase PyBaseFacts CVec Thresh Prior Forward Sampler Mcmc Arrays ArrSpec ArrProof HSampler HSampSpec.
Import ListNotations.
Notation length := List.length.
Open Scope Z_scope.

Lemma frame_refl : forall t h, frame t h h.
Proof. intros t h. split; [lia|auto]. Qed.
Lemma frame_trans : forall t a b c, frame t a b -> frame t b c -> frame t a c.
Proof. intros t a b c [A B] [D E]. split; [lia|]. intros k Hk N. rewrite E by (auto; lia). apply B; auto. Qed.
Lemma preserves_frame : forall t h h', preserves h h' -> frame t h h'.
Proof. intros t h h' [u ->]. split; [rewrite app_length; lia|]. intros c Hc _. unfold cell. apply app_nth1. exact Hc. Qed.
Lemma rd_frame : forall t h h' r, frame t h h' -> allocated h r -> ~ In (r_cell r) t -> rd h' r = rd h r.
Proof. intros t h h' r [A B] Ha N. unfold rd. rewrite B by auto. reflexivity. Qed.

Lemma scatter_mid : forall v pre buf suf, length v = length buf -> scatter (pre ++ buf ++ suf) (seq (length pre) (length buf)) v = pre ++ v ++ suf.
Proof.
  induction v as [|x v IH]; intros pre [|y buf] suf L; try discriminate; cbn [List.length seq scatter]; [reflexivity|].
  assert (E : upd (pre ++ (y :: buf) ++ suf) (length pre) x = (pre ++ [x]) ++ buf ++ suf).
  { cbn [app]. rewrite upd_app_exact, <- app_assoc. reflexivity. }
  rewrite E. replace (S (length pre)) with (length (pre ++ [x])) by (rewrite app_length; cbn; lia).
  rewrite IH by (cbn in L; lia). rewrite <- app_assoc. reflexivity.
Qed.
Lemma concat_length_all : forall (l : list vec) n, (forall x, In x l -> length x = n) -> length (List.concat l) = (length l * n)%nat.
Proof. induction l as [|x l IH]; intros n Hn; [reflexivity|]. cbn [List.concat List.length]. rewrite app_length, (IH n) by (intros; apply Hn; right; auto). rewrite (Hn x) by (left; auto). lia. Qed.
Lemma list_split_at : forall (l : list vec) k, (k < length l)%nat -> exists a x b, l = a ++ x :: b /\ length a = k.
Proof.
  intros l k Hk. destruct (nth_split l [] Hk) as [a [b [E L]]]. exists a, (nth k l []), b. auto.
Qed.
Lemma scatter_row : forall (l : list vec) k n x, (k < length l)%nat -> (forall y, In y l -> length y = n) -> length x = n ->
  scatter (List.concat l) (seq (k * n) n) x = List.concat (upd l k x).
Proof.
  intros l k n x Hk Hn Lx. destruct (list_split_at l k Hk) as [a [y [b [-> La]]]]. subst k. rewrite upd_app_exact, !concat_app. cbn [List.concat].
  assert (Ly : length y = n) by (apply Hn; apply in_or_app; right; left; auto).
  assert (Lc : length (List.concat a) = (length a * n)%nat) by (apply concat_length_all; intros z Hz; apply Hn; apply in_or_app; auto).
  rewrite <- Lc, <- Ly at 1. apply scatter_mid. congruence.
Qed.
Lemma nth_row1 : forall (l : list C) k d, nth k (List.concat (map (fun z => [z]) l)) d = nth k l d.
Proof. induction l as [|x l IH]; intros [|k] d; cbn; auto. Qed.

Section Sim.
Context {G I HI : Type}.
Variable o : ops vec vec C R G I.
Variable ho : hops G HI.
Variable prm : params.
Variables nV nD : nat.
Variable P : aheap -> Prop.
Variable trk : list nat.
Hypothesis P_frame : forall h h', P h -> frame trk h h' -> P h'.
Hypothesis rowV_len : forall x y, o_rowV o x = Ok y -> length y = nV.
Hypothesis rowD_len : forall x y, o_rowD o x = Ok y -> length y = nD.

Definition good (hw : hworld G) (w : world vec vec C R G) : Prop :=
  same_state prm nV nD hw w /\ P (hw_heap hw) /\ (forall c, In c (cells (hw_inst hw)) -> In c trk) /\ (forall c, In c trk -> (c < length (hw_heap hw))%nat).

(** simulation of one computation by another; F relates the heap before and after *)
Definition sim {A B} (F : aheap -> aheap -> Prop) (m : HM A) (p : M B) (hw : hworld G) (w : world vec vec C R G) (Rel : A -> B -> aheap -> Prop) : Prop :=
  F (hw_heap hw) (hw_heap (fst (m hw))) /\ good (fst (m hw)) (fst (p w)) /\
  match snd (m hw), snd (p w) with
  | Ret a, Ret b => Rel a b (hw_heap (fst (m hw)))
  | Exn e, Exn e' => e = e'
  | NoFuel, NoFuel => True
  | _, _ => False
  end.
Notation fr := (frame trk).

Lemma sim_bind : forall {A B A' B'} (F1 F2 F : aheap -> aheap -> Prop) (m : HM A) (p : M B) (k : A -> HM A') (k' : B -> M B') hw w R1 Rel,
  (forall a b c, F1 a b -> F2 b c -> F a c) -> (forall a b, F1 a b -> F a b) ->
  sim F1 m p hw w R1 ->
  (forall a b hw1 w1, F1 (hw_heap hw) (hw_heap hw1) -> good hw1 w1 -> R1 a b (hw_heap hw1) -> sim F2 (k a) (k' b) hw1 w1 Rel) ->
  sim F (mbind m k) (bind p k') hw w Rel.
Proof.
  intros A B A' B' F1 F2 F m p k k' hw w R1 Rel T S0 [Ff [Gd O]] K. unfold sim, mbind, bind. destruct (m hw) as [hw1 oa], (p w) as [w1 ob]. cbn [fst snd] in *.
  destruct oa as [a|e|], ob as [b|e'|]; try contradiction.
  - destruct (K a b hw1 w1 Ff Gd O) as [Ff2 [Gd2 O2]]. split; [eapply T; eauto|]. split; [exact Gd2|exact O2].
  - subst e'. split; [apply S0; exact Ff|]. split; [exact Gd|reflexivity].
  - split; [apply S0; exact Ff|]. split; [exact Gd|exact O].
Qed.
Lemma sim_ret : forall {A B} (F : aheap -> aheap -> Prop) (a : A) (b : B) hw w (Rel : A -> B -> aheap -> Prop), (forall h, F h h) -> good hw w -> Rel a b (hw_heap hw) -> sim F (mret a) (ret b) hw w Rel.
Proof. intros A B F a b hw w Rel Fr Gd Hr. split; [apply Fr|]. split; [exact Gd|exact Hr]. Qed.
Lemma sim_lift : forall {A B} (F : aheap -> aheap -> Prop) (r : res A) (q : res B) hw w (Rel : A -> B -> aheap -> Prop), (forall h, F h h) -> good hw w ->
  match r, q with Ok a, Ok b => Rel a b (hw_heap hw) | Raise e, Raise e' => e = e' | _, _ => False end -> sim F (mlift r) (lift q) hw w Rel.
Proof. intros A B F [a|e] [b|e'] hw w Rel Fr Gd Hr; try contradiction; split; try apply Fr; (split; [exact Gd|]); exact Hr. Qed.
Lemma sim_weaken : forall {A B} (F F' : aheap -> aheap -> Prop) (m : HM A) (p : M B) hw w (Rel Rel' : A -> B -> aheap -> Prop),
  sim F m p hw w Rel -> (forall a b, F a b -> F' a b) -> (forall a b h, Rel a b h -> Rel' a b h) -> sim F' m p hw w Rel'.
Proof.
  intros A B F F' m p hw w Rel Rel' [A1 [A2 A3]] Hf Hr. split; [auto|]. split; [auto|]. destruct (snd (m hw)), (snd (p w)); auto.
Qed.

(** preserving the heap keeps everything *)
Lemma shows_mono : forall h h' n d c l, preserves h h' -> shows h n d c l -> shows h' n d c l.
Proof.
  intros h h' n d [c|] [l|] [t ->] Hs; cbn in *; auto. destruct Hs as [A [B [D E]]]. split; [rewrite app_length; lia|]. split; [|auto]. unfold cell in *. rewrite app_nth1 by exact A. exact B.
Qed.
Lemma good_mono : forall hw w g h', good hw w -> preserves (hw_heap hw) h' ->
  good (mkHW (hw_inst hw) g h') (mkWorld (w_inst w) g).
Proof.
  intros hw w g h' [S0 [Pp [Ci Ca]]] Hp. pose proof (preserves_length _ _ Hp). split; [|split; [eapply P_frame; [exact Pp|apply preserves_frame; exact Hp]|split; [exact Ci|cbn; intros c Hc; specialize (Ca c Hc); lia]]].
  destruct S0 as [A [B [D [E [F [N Sh]]]]]]. repeat split; auto. intros a. eapply shows_mono; [exact Hp|apply Sh].
Qed.

(** values held by references *)
Definition holds (h : aheap) (L : list (aref * vec)) : Prop := forall r v, In (r, v) L -> allocated h r /\ rd h r = v.
Lemma holds_mono : forall h h' L, preserves h h' -> holds h L -> holds h' L.
Proof. intros h h' L Hp Hh r v Hi. destruct (Hh r v Hi) as [A B]. split; [eapply allocated_mono; eauto|]. rewrite (rd_mono h h' r Hp A). exact B. Qed.
Lemma holds_cons : forall h L r v, allocated h r -> rd h r = v -> holds h L -> holds h ((r, v) :: L).
Proof. intros h L r v A B Hh r' v' [E|Hi]; [injection E as <- <-; auto|auto]. Qed.

(** one call of an operator *)
Lemma sim_op : forall {A B} F f X x (k : aref -> HM A) (k' : vec -> M B) hw w L Rel, implements P F f -> good hw w -> holds (hw_heap hw) L -> In (X, x) L ->
  (forall r v h1, preserves (hw_heap hw) h1 -> good (mkHW (hw_inst hw) (hw_rng hw) h1) w -> holds h1 ((r, v) :: L) ->
     (length (hw_heap hw) <= r_cell r)%nat \/ r_cell r = r_cell X -> sim fr (k r) (k' v) (mkHW (hw_inst hw) (hw_rng hw) h1) w Rel) ->
  sim fr (mbind (mheap (F X)) k) (bind (lift (f x)) k') hw w Rel.
Proof.
  intros A B F f X x k k' hw w L Rel HF Gd Hh Hi K. destruct (Hh X x Hi) as [Ha Hr].
  destruct (HF (hw_heap hw) X (proj1 (proj2 Gd)) Ha) as [Hp Hg]. unfold sim, mbind, mheap, bind. destruct (F X (hw_heap hw)) as [out h1]. cbn [fst snd] in *. rewrite Hr in Hg.
  assert (Gd1 : good (mkHW (hw_inst hw) (hw_rng hw) h1) w).
  { destruct w as [wi wg]. replace wg with (hw_rng hw) by apply Gd. apply (good_mono hw (mkWorld wi wg)); auto. }
  unfold gives in Hg. destruct (f x) as [v|e].
  - destruct Hg as [r [-> [Ar [Er Hc]]]]. cbn [mlift lift mret ret]. destruct (K r v h1 Hp Gd1) as [Q1 [Q2 Q3]].
    + apply holds_cons; auto. eapply holds_mono; eauto.
    + destruct Hc as [Hc|[Hc|[]]]; auto.
    + split; [|split; [exact Q2|exact Q3]]. eapply frame_trans; [apply preserves_frame; exact Hp|exact Q1].
  - subst out. cbn. split; [apply preserves_frame; exact Hp|]. split; [exact Gd1|reflexivity].
Qed.
(** one drawing operation *)
Lemma sim_draw : forall {A B} (m : G -> H aref * G) (q : G -> res vec * G) (k : aref -> HM A) (k' : vec -> M B) hw w L Rel, good hw w -> holds (hw_heap hw) L ->
  (snd (m (hw_rng hw)) = snd (q (hw_rng hw)) /\ hspec (fst (m (hw_rng hw))) (hw_heap hw) (gives (hw_heap hw) [] (fst (q (hw_rng hw))))) ->
  (forall r v g h1, preserves (hw_heap hw) h1 -> good (mkHW (hw_inst hw) g h1) (mkWorld (w_inst w) g) -> holds h1 ((r, v) :: L) ->
     (length (hw_heap hw) <= r_cell r)%nat -> sim fr (k r) (k' v) (mkHW (hw_inst hw) g h1) (mkWorld (w_inst w) g) Rel) ->
  sim fr (mbind (mdraw m) k) (bind (with_rng q) k') hw w Rel.
Proof.
  intros A B m q k k' hw w L Rel Gd Hh [Eg Hs] K. unfold sim, mbind, mdraw, mheap, bind, with_rng. replace (w_rng w) with (hw_rng hw) by apply Gd.
  destruct (m (hw_rng hw)) as [c g'], (q (hw_rng hw)) as [v g2]. cbn [fst snd] in *. subst g2. cbn [hw_heap hw_inst hw_rng]. destruct Hs as [Hp Hg].
  destruct (c (hw_heap hw)) as [out h1]. cbn [fst snd] in *. pose proof (good_mono hw w g' h1 Gd Hp) as Gd1.
  unfold gives in Hg. destruct v as [v|e].
  - destruct Hg as [r [-> [Ar [Er Hc]]]]. cbn [mlift lift mret ret]. destruct (K r v g' h1 Hp Gd1) as [Q1 [Q2 Q3]].
    + apply holds_cons; auto. eapply holds_mono; eauto.
    + destruct Hc as [Hc|[]]; auto.
    + split; [|split; [exact Q2|exact Q3]]. eapply frame_trans; [apply preserves_frame; exact Hp|exact Q1].
  - subst out. cbn. split; [apply preserves_frame; exact Hp|]. split; [exact Gd1|reflexivity].
Qed.
(** an operation whose result is a plain value *)
Lemma sim_val : forall {K A B} (m : H K) (q : res K) (k : K -> HM A) (k' : K -> M B) hw w L Rel, good hw w -> holds (hw_heap hw) L ->
  hspec m (hw_heap hw) (fun r _ => r = q) ->
  (forall v h1, preserves (hw_heap hw) h1 -> good (mkHW (hw_inst hw) (hw_rng hw) h1) w -> holds h1 L -> sim fr (k v) (k' v) (mkHW (hw_inst hw) (hw_rng hw) h1) w Rel) ->
  sim fr (mbind (mheap m) k) (bind (lift q) k') hw w Rel.
Proof.
  intros K A B m q k k' hw w L Rel Gd Hh [Hp Hq] Kk. unfold sim, mbind, mheap, bind. destruct (m (hw_heap hw)) as [out h1]. cbn [fst snd] in *. subst out.
  assert (Gd1 : good (mkHW (hw_inst hw) (hw_rng hw) h1) w).
  { destruct w as [wi wg]. replace wg with (hw_rng hw) by apply Gd. apply (good_mono hw (mkWorld wi wg)); auto. }
  destruct q as [v|e]; cbn [mlift lift mret ret].
  - destruct (Kk v h1 Hp Gd1) as [Q1 [Q2 Q3]]; [eapply holds_mono; eauto|]. split; [|split; [exact Q2|exact Q3]]. eapply frame_trans; [apply preserves_frame; exact Hp|exact Q1].
  - cbn. split; [apply preserves_frame; exact Hp|]. split; [exact Gd1|reflexivity].
Qed.

(** ** storing a row *)
Lemma cells_inj : forall s a b c, NoDup (cells s) -> hi_arr s a = Some c -> hi_arr s b = Some c -> a = b.
Proof.
  intros s a b c N Ea Eb. unfold cells in N. cbn [flat_map] in N. remember (hi_arr s) as f eqn:Ef. clear Ef.
  destruct a, b; try reflexivity; exfalso;
    destruct (f ALogPi) as [c1|], (f AL2s) as [c2|], (f APriors) as [c3|], (f APreds) as [c4|], (f AChain) as [c5|]; try discriminate;
    injection Ea as ->; injection Eb as ->; cbn [app] in N;
    repeat match goal with H : NoDup (_ :: _) |- _ => apply NoDup_cons_iff in H; destruct H end; cbn [In] in *; tauto.
Qed.
Lemma cells_in : forall s a c, hi_arr s a = Some c -> In c (cells s).
Proof. intros s a c E. unfold cells. apply in_flat_map. exists a. split; [destruct a; cbn; tauto|]. rewrite E. left. reflexivity. Qed.
Lemma row_setitem : forall {A} (l : list A) c n j (x : A), row c n (Z.of_nat (length l)) j =
  match py_setitem l j x with Ok _ => Ok (mkRef c (seq (Z.to_nat (if j <? 0 then Z.of_nat (length l) + j else j) * n) n)) | Raise e => Raise e end.
Proof. intros A l c n j x. unfold row, py_setitem. destruct (_ || _)%bool; reflexivity. Qed.
Lemma setitem_ok : forall {A} (l l' : list A) j x, py_setitem l j x = Ok l' ->
  l' = upd l (Z.to_nat (if j <? 0 then Z.of_nat (length l) + j else j)) x /\ (Z.to_nat (if (j <? 0)%Z then (Z.of_nat (length l) + j)%Z else j) < length l)%nat.
Proof.
  intros A l l' j x E. unfold py_setitem in E. destruct (_ || _)%bool eqn:Eb; [discriminate|]. injection E as <-. split; [reflexivity|].
  apply orb_false_iff in Eb. destruct Eb as [B1 B2]. apply Z.ltb_ge in B1. apply Z.leb_gt in B2. lia.
Qed.
Lemma map_upd : forall {A B} (f : A -> B) l k x, map f (upd l k x) = upd (map f l) k (f x).
Proof. induction l as [|y l IH]; intros [|k] x; cbn; auto. f_equal. apply IH. Qed.
Lemma in_upd : forall {A} (l : list A) k x y, In y (upd l k x) -> y = x \/ In y l.
Proof. induction l as [|z l IH]; intros [|k] x y Hy; cbn in *; auto; destruct Hy as [->|Hy]; auto. destruct (IH _ _ _ Hy); auto. Qed.
Lemma attrib_eq_dec : forall a b : attrib, {a = b} + {a <> b}.
Proof. decide equality. Qed.

Lemma sim_store : forall {A} (a : attrib) (get : inst vec vec C R -> option (list A)) (set : option (list A) -> inst vec vec C R -> inst vec vec C R) (emb : A -> vec)
    (j : Z) (v : HM vec) (vp : res A) hw w,
  (forall s, rows a s = option_map (map emb) (get s)) ->
  (forall s l, get (set (Some l) s) = Some l) ->
  (forall s l b, b <> a -> rows b (set l s) = rows b s) ->
  (forall s l, i_acc (set l s) = i_acc s /\ i_deltas (set l s) = i_deltas s /\ i_delta (set l s) = i_delta s /\ i_out (set l s) = i_out s) ->
  v hw = (hw, match vp with Ok x => Ret (emb x) | Raise e => Exn e end) ->
  (forall x, vp = Ok x -> length (emb x) = dim nV nD a) ->
  good hw w ->
  sim fr (h_store prm nV nD a j v) (store get set j vp) hw w (fun _ _ _ => True) /\
  hw_inst (fst (h_store prm nV nD a j v hw)) = hw_inst hw.
Proof.
  intros A a get set emb j v vp hw w Hrows Hset Hoth Hsc Hv Hlen Gd. pose proof Gd as [[S1 [S2 [S3 [S4 [S5 [Nd Sh]]]]]] [Pp [Ci Ca]]].
  pose proof (Sh a) as Sa. rewrite Hrows in Sa. unfold sim, h_store, store, mbind, bind, mget, get_inst. cbn [fst snd].
  destruct (hi_arr (hw_inst hw) a) as [c|] eqn:Ec, (get (w_inst w)) as [l|] eqn:El; cbn [option_map shows] in Sa; try contradiction.
  - rewrite Hv. destruct vp as [x|e]; cbn [lift ret throw]; [|split; [split; [apply frame_refl|split; [exact Gd|reflexivity]]|reflexivity]].
    destruct Sa as [Hc [Econ [Ln Hall]]]. rewrite map_length in Ln. rewrite <- Ln, (row_setitem l c _ j x).
    destruct (py_setitem l j x) as [l'|e] eqn:Es; cbn [mlift mret mthrow lift ret throw]; [|split; [split; [apply frame_refl|split; [exact Gd|reflexivity]]|reflexivity]].
    destruct (setitem_ok l l' j x Es) as [El' Hk]. set (k := Z.to_nat _) in *. set (n := dim nV nD a) in *. unfold mheap, mlift, mret, put_inst. cbn [fst snd hw_heap hw_inst hw_rng].
    assert (Hcell : forall d, cell (wr (hw_heap hw) (mkRef c (seq (k * n) n)) (emb x)) d = if (d =? c)%nat then List.concat (map emb l') else cell (hw_heap hw) d).
    { intros d. rewrite cell_wr by exact Hc. cbn [r_cell r_idx]. destruct (Nat.eqb_spec d c) as [->|]; [|reflexivity]. rewrite Econ, El', map_upd. apply scatter_row; [rewrite map_length; exact Hk|exact Hall|apply Hlen; reflexivity]. }
    assert (Ff : fr (hw_heap hw) (wr (hw_heap hw) (mkRef c (seq (k * n) n)) (emb x))).
    { split; [rewrite wr_length; lia|]. intros d Hd Nn. rewrite Hcell. destruct (Nat.eqb_spec d c) as [->|]; [|reflexivity]. exfalso. apply Nn, Ci. apply (cells_in _ a). exact Ec. }
    split; [|reflexivity]. split; [exact Ff|]. split; [|exact Logic.I].
    split; [|split; [eapply P_frame; [exact Pp|exact Ff]|split; [exact Ci|cbn; rewrite wr_length; exact Ca]]].
    destruct (Hsc (w_inst w) (Some l')) as [C1 [C2 [C3 C4]]]. unfold same_state. cbn [hw_inst hw_rng hw_heap w_rng w_inst]. rewrite C1, C2, C3, C4.
    do 6 (split; [assumption|]). intros b. destruct (attrib_eq_dec b a) as [->|Nb].
    + rewrite Ec, Hrows, Hset. cbn [option_map shows]. split; [rewrite wr_length; exact Hc|]. rewrite Hcell, Nat.eqb_refl. split; [reflexivity|].
      split; [rewrite map_length, El', length_upd; exact Ln|]. intros y Hy. rewrite El', map_upd in Hy. apply in_upd in Hy. destruct Hy as [->|Hy]; [apply Hlen; reflexivity|apply Hall; exact Hy].
    + rewrite Hoth by exact Nb. pose proof (Sh b) as Sb. destruct (hi_arr (hw_inst hw) b) as [c'|] eqn:Eb, (rows b (w_inst w)) as [l2|]; cbn [shows] in *; auto.
      destruct Sb as [B1 [B2 B3]]. split; [rewrite wr_length; exact B1|]. split; [|exact B3]. rewrite Hcell. destruct (Nat.eqb_spec c' c) as [->|]; [|exact B2].
      exfalso. apply Nb. eapply cells_inj; eauto.
  - cbn. split; [split; [apply frame_refl|split; [exact Gd|exact Logic.I]]|reflexivity].
Qed.

Lemma fr_trans : forall a b c, fr a b -> fr b c -> fr a c.
Proof. exact (frame_trans trk). Qed.
Lemma sim_seq : forall {A B A' B'} (m : HM A) (p : M B) (k : A -> HM A') (k' : B -> M B') hw w R1 Rel,
  sim fr m p hw w R1 ->
  (forall a b hw1 w1, fr (hw_heap hw) (hw_heap hw1) -> good hw1 w1 -> R1 a b (hw_heap hw1) -> sim fr (k a) (k' b) hw1 w1 Rel) ->
  sim fr (mbind m k) (bind p k') hw w Rel.
Proof. intros. eapply sim_bind; eauto. apply fr_trans. Qed.
Lemma holds_frame : forall h h' L, fr h h' -> holds h L -> (forall r v, In (r, v) L -> ~ In (r_cell r) trk) -> holds h' L.
Proof.
  intros h h' L Hf Hh Hn r v Hi. destruct (Hh r v Hi) as [A B]. split; [unfold allocated in *; destruct Hf; lia|]. rewrite (rd_frame trk h h' r Hf A (Hn r v Hi)). exact B.
Qed.
Lemma values_same : forall (hw : hworld G) r, mheap (values r) hw = (hw, Ret (rd (hw_heap hw) r)).
Proof. intros [i g h] r. reflexivity. Qed.

Ltac st := first [assumption | reflexivity | (intros ? ? []; intros; (reflexivity || congruence)) | (intros; reflexivity) | solve [auto]].
Lemma sim_tracking : forall j X d x dv lp l2 pr hw w, good hw w -> holds (hw_heap hw) [(X, x); (d, dv)] -> ~ In (r_cell X) trk -> ~ In (r_cell d) trk ->
  sim fr (h_tracking o prm nV nD j X d lp l2 pr) (tracking o j x dv lp l2 pr) hw w (fun _ _ _ => True).
Proof.
  intros j X d x dv lp l2 pr hw w Gd Hh NX Nd.
  assert (Hn : forall r v, In (r, v) [(X, x); (d, dv)] -> ~ In (r_cell r) trk) by (intros r v [E|[E|[]]]; injection E as <- <-; assumption).
  unfold h_tracking, tracking.
  eapply sim_seq; [apply (sim_store ALogPi i_logPi set_logPi (fun z => [z])); st|].
  intros ? ? hw1 w1 F1 G1 _.
  eapply sim_seq; [apply (sim_store AL2s i_L2s set_L2s (fun z => [z])); st|].
  intros ? ? hw2 w2 F2 G2 _.
  eapply sim_seq; [apply (sim_store APriors i_priors set_priors (fun z => [z])); st|].
  intros ? ? hw3 w3 F3 G3 _.
  assert (H3 : holds (hw_heap hw3) [(X, x); (d, dv)]) by (eapply holds_frame; [|exact Hh|exact Hn]; eauto using fr_trans).
  assert (Ei : forall l : list vec, l = map (fun z => z) l) by (intros l; symmetry; apply map_id).
  eapply sim_seq; [apply (sim_store APreds i_preds set_preds (fun z => z)); try solve [st]|].
  - intros s. cbn. destruct (i_preds s); cbn; [rewrite map_id|]; reflexivity.
  - unfold mbind. rewrite values_same. rewrite (proj2 (H3 d dv (or_intror (or_introl eq_refl)))). destruct (o_rowD o dv); reflexivity.
  - intros z Ez. exact (rowD_len _ _ Ez).
  - intros ? ? hw4 w4 F4 G4 _.
    assert (H4 : holds (hw_heap hw4) [(X, x); (d, dv)]) by (eapply holds_frame; [|exact H3|exact Hn]; auto).
    apply (sim_store AChain i_chain set_chain (fun z => z)); try solve [st].
    + intros s. cbn. destruct (i_chain s); cbn; [rewrite map_id|]; reflexivity.
    + unfold mbind. rewrite values_same. rewrite (proj2 (H4 X x (or_introl eq_refl))). destruct (o_rowV o x); reflexivity.
    + intros z Ez. exact (rowV_len _ _ Ez).
Qed.

Lemma sim_print : forall e hw w, good hw w -> sim fr (mprint e) (print e) hw w (fun _ _ h => h = hw_heap hw).
Proof.
  intros e hw w Gd. unfold sim, mprint, print, mbind, bind, mget, get_inst, mput, put_inst. cbn. split; [apply frame_refl|]. split; [|reflexivity].
  destruct Gd as [[A [B [D [E [F [N S0]]]]]] [Pp [Ci Ca]]]. split; [|split; [exact Pp|split; [exact Ci|exact Ca]]]. unfold same_state. cbn. rewrite F. repeat split; auto.
Qed.
Lemma sim_read : forall a (get : inst vec vec C R -> option (list C)) k hw w, (forall s, rows a s = option_map (map (fun z => [z])) (get s)) -> dim nV nD a = 1%nat -> good hw w ->
  sim fr (h_read prm a k) (read_attr get k) hw w (fun x y h => x = y /\ h = hw_heap hw).
Proof.
  intros a get k hw w Hrows Hd Gd. pose proof (proj2 (proj2 (proj2 (proj2 (proj2 (proj2 (proj1 Gd)))))) a) as Sa. rewrite Hrows, Hd in Sa.
  unfold sim, h_read, read_attr, mbind, bind, mget, get_inst. cbn [fst snd]. destruct (hi_arr (hw_inst hw) a) as [c|], (get (w_inst w)) as [l|]; cbn [option_map shows] in Sa; try contradiction.
  - destruct Sa as [Hc [Ec [Ln _]]]. rewrite map_length in Ln. rewrite <- Ln. unfold row, py_index.
    destruct (_ || _)%bool eqn:Eb; [cbn; split; [apply frame_refl|split; [exact Gd|reflexivity]]|].
    apply orb_false_iff in Eb. destruct Eb as [B1 B2]. apply Z.ltb_ge in B1. apply Z.leb_gt in B2. set (k' := if k <? 0 then _ else _) in *.
    cbn [mlift mret]. rewrite values_same. unfold rd. cbn [r_idx r_cell map seq fst snd]. rewrite Nat.mul_1_r, Ec, nth_row1.
    destruct (nth_error l (Z.to_nat k')) as [z|] eqn:Ez; [|apply nth_error_None in Ez; lia]. cbn [lift ret fst snd map seq nth]. split; [apply frame_refl|]. split; [exact Gd|]. split; [|reflexivity].
    apply nth_error_nth. exact Ez.
  - cbn. split; [apply frame_refl|split; [exact Gd|reflexivity]].
Qed.
Lemma sim_print_saved : forall j hw w, good hw w -> sim fr (h_print_saved prm j) (print_saved j) hw w (fun _ _ h => h = hw_heap hw).
Proof.
  intros j hw w Gd. unfold h_print_saved, print_saved.
  eapply sim_seq; [apply (sim_read ALogPi i_logPi); auto|]. intros a b hw1 w1 F1 G1 [-> E1].
  eapply sim_seq; [apply (sim_read AL2s i_L2s); auto|]. intros a2 b2 hw2 w2 F2 G2 [-> E2].
  eapply sim_seq; [apply (sim_read APriors i_priors); auto|]. intros a3 b3 hw3 w3 F3 G3 [-> E3].
  eapply sim_weaken; [apply sim_print; exact G3|auto|]. cbn. intros _ _ h ->. congruence.
Qed.
Lemma sim_get : forall {A B} (k : hinst -> HM A) (k' : inst vec vec C R -> M B) hw w Rel, sim fr (k (hw_inst hw)) (k' (w_inst w)) hw w Rel ->
  sim fr (mbind mget k) (bind get_inst k') hw w Rel.
Proof. intros. exact H. Qed.

Hypothesis OA : ops_on_arrays P ho o.

Lemma trk_fresh : forall hw w r, good hw w -> (length (hw_heap hw) <= r_cell r)%nat -> ~ In (r_cell r) trk.
Proof. intros hw w r [_ [_ [_ Ca]]] Hl Hi. specialize (Ca _ Hi). lia. Qed.
Definition relXD (a : Z * aref * aref) (b : Z * vec * vec) (h : aheap) : Prop :=
  fst (fst a) = fst (fst b) /\ holds h [(snd (fst a), snd (fst b)); (snd a, snd b)].

(** the part of the body that saves a sample *)
Lemma sim_save : forall j X d x dv hw w, good hw w -> holds (hw_heap hw) [(X, x); (d, dv)] -> ~ In (r_cell X) trk -> ~ In (r_cell d) trk ->
  sim fr (mbind (mheap (ho_logpi ho X d)) (fun t => let '(logPi, L2, prior) := t in
            mbind (h_tracking o prm nV nD j X d logPi L2 prior) (fun _ => mret (j + 1))))
         (bind (lift (o_logpi o x dv)) (fun t => let '(logPi, L2, prior) := t in
            bind (tracking o j x dv logPi L2 prior) (fun _ => ret (j + 1)))) hw w (fun a b _ => a = b).
Proof.
  intros j X d x dv hw w Gd Hh NX Nd. destruct (Hh X x (or_introl eq_refl)) as [AX RX]. destruct (Hh d dv (or_intror (or_introl eq_refl))) as [Ad Rd].
  eapply sim_val; [exact Gd|exact Hh|rewrite <- RX, <- Rd; apply (oa_logpi P ho o OA); auto; apply Gd|].
  intros [[lp l2] pr] h1 Hp1 G1 H1. eapply sim_seq; [apply sim_tracking; eauto|]. intros ? ? hw2 w2 F2 G2 _. apply sim_ret; auto using frame_refl.
Qed.

Lemma sim_myula_body : forall i j X d x dv hw w, good hw w -> holds (hw_heap hw) [(X, x); (d, dv)] ->
  sim fr (h_myula_body o ho prm nV nD i j X d) (myula_body o prm i j x dv) hw w relXD.
Proof.
  intros i j X d x dv hw w Gd Hh. unfold h_myula_body, myula_body.
  eapply sim_op; [apply (oa_gradg P ho o OA)|exact Gd|exact Hh|right; left; reflexivity|]. intros gr gv h1 Hp1 G1 H1 _.
  eapply sim_op; [apply (oa_proxf P ho o OA)|exact G1|exact H1|right; left; reflexivity|]. intros px pv h2 Hp2 G2 H2 _.
  apply sim_get. cbn [hw_inst].
  assert (Ed : hi_delta (hw_inst hw) = i_delta (w_inst w)) by apply Gd. rewrite Ed.
  destruct (H2 X x ltac:(cbn; auto)) as [AX RX]. destruct (H2 px pv ltac:(cbn; auto)) as [Ap Rp]. destruct (H2 gr gv ltac:(cbn; auto)) as [Ag Rg].
  eapply sim_draw; [exact G2|exact H2|cbn [hw_heap hw_rng]; rewrite <- RX, <- Rp, <- Rg; apply (oa_step P ho o OA); auto; apply G2|].
  cbn [hw_heap hw_inst hw_rng]. intros Xp xp g h3 Hp3 G3 H3 Hc3. assert (N3 : ~ In (r_cell Xp) trk) by (eapply (trk_fresh _ _ _ G2); exact Hc3).
  eapply sim_op; [apply (oa_forward P ho o OA)|exact G3|exact H3|left; reflexivity|]. cbn [hw_heap hw_inst hw_rng]. intros dp dpv h4 Hp4 G4 H4 Hc4.
  assert (N4 : ~ In (r_cell dp) trk) by (destruct Hc4 as [Hc4| ->]; [eapply (trk_fresh _ _ _ G3); exact Hc4|exact N3]).
  assert (Hxd : holds h4 [(Xp, xp); (dp, dpv)]) by (intros r v [E|[E|[]]]; injection E as <- <-; apply H4; cbn; auto).
  assert (Hn : forall r v, In (r, v) [(Xp, xp); (dp, dpv)] -> ~ In (r_cell r) trk) by (intros r v [E|[E|[]]]; injection E as <- <-; assumption).
  destruct (p_nburn prm <=? i).
  - eapply sim_seq with (R1 := fun a b _ => a = b).
    + destruct (grid_hit prm i); [apply sim_save; auto|apply sim_ret; auto using frame_refl].
    + intros j1 j2 hw5 w5 F5 G5 ->. cbn [hw_heap] in F5. eapply sim_seq with (R1 := fun _ _ h => h = hw_heap hw5).
      * destruct (progress_due prm i); [apply sim_print_saved; exact G5|apply sim_ret; auto using frame_refl].
      * intros ? ? hw6 w6 F6 G6 E6. apply sim_ret; auto using frame_refl. split; [reflexivity|]. cbn [fst snd]. rewrite E6. eapply holds_frame; eauto.
  - eapply sim_seq with (R1 := fun _ _ h => h = h4).
    + destruct (progress_due prm i); [eapply sim_weaken; [apply sim_print; exact G4|auto|auto]|apply sim_ret; auto using frame_refl].
    + intros ? ? hw6 w6 F6 G6 E6. apply sim_ret; auto using frame_refl. split; [reflexivity|]. cbn [fst snd]. rewrite E6. exact Hxd.
Qed.
Lemma sim_myula_loop : forall fuel i j X d x dv hw w, good hw w -> holds (hw_heap hw) [(X, x); (d, dv)] ->
  sim fr (h_myula_loop o ho prm nV nD fuel i j X d) (myula_loop o prm fuel i j x dv) hw w (fun _ _ _ => True).
Proof.
  induction fuel as [|fuel IH]; intros i j X d x dv hw w Gd Hh; cbn [h_myula_loop myula_loop]; destruct (j <? p_nsamples prm).
  - split; [apply frame_refl|]. split; [exact Gd|exact Logic.I].
  - eapply sim_weaken; [apply sim_print; exact Gd|auto|auto].
  - eapply sim_seq; [apply sim_myula_body; eauto|]. intros [[j1 X1] d1] [[j2 x2] d2] hw1 w1 F1 G1 [Ej Hh1]. cbn in Ej, Hh1. subst j2. apply IH; auto.
  - eapply sim_weaken; [apply sim_print; exact Gd|auto|auto].
Qed.

Lemma sim_skrock_body : forall i j X d x dv hw w, good hw w -> holds (hw_heap hw) [(X, x); (d, dv)] ->
  sim fr (h_skrock_body o ho prm nV nD i j X d) (skrock_body o prm i j x dv) hw w relXD.
Proof.
  intros i j X d x dv hw w Gd Hh. unfold h_skrock_body, skrock_body.
  apply sim_get. assert (Ed : hi_delta (hw_inst hw) = i_delta (w_inst w)) by apply Gd. rewrite Ed.
  destruct (Hh X x ltac:(cbn; auto)) as [AX RX].
  eapply sim_draw; [exact Gd|exact Hh|rewrite <- RX; apply (oa_skstep P ho o OA); auto; apply Gd|].
  intros Xp xp g h3 Hp3 G3 H3 Hc3. assert (N3 : ~ In (r_cell Xp) trk) by (eapply (trk_fresh _ _ _ Gd); exact Hc3).
  eapply sim_op; [apply (oa_forward P ho o OA)|exact G3|exact H3|left; reflexivity|]. cbn [hw_heap hw_inst hw_rng]. intros dp dpv h4 Hp4 G4 H4 Hc4.
  assert (N4 : ~ In (r_cell dp) trk) by (destruct Hc4 as [Hc4| ->]; [eapply (trk_fresh _ _ _ G3); exact Hc4|exact N3]).
  assert (Hxd : holds h4 [(Xp, xp); (dp, dpv)]) by (intros r v [E|[E|[]]]; injection E as <- <-; apply H4; cbn; auto).
  assert (Hn : forall r v, In (r, v) [(Xp, xp); (dp, dpv)] -> ~ In (r_cell r) trk) by (intros r v [E|[E|[]]]; injection E as <- <-; assumption).
  eapply sim_seq with (R1 := fun a b _ => a = b).
  - destruct (p_nburn prm <=? i); [|apply sim_ret; auto using frame_refl]. destruct (grid_hit prm i); [apply sim_save; auto|apply sim_ret; auto using frame_refl].
  - intros j1 j2 hw5 w5 F5 G5 ->. cbn [hw_heap] in F5. eapply sim_seq with (R1 := fun _ _ h => h = hw_heap hw5).
    + destruct (progress_due prm i); [apply sim_print_saved; exact G5|apply sim_ret; auto using frame_refl].
    + intros ? ? hw6 w6 F6 G6 E6. apply sim_ret; auto using frame_refl. split; [reflexivity|]. cbn [fst snd]. rewrite E6. eapply holds_frame; eauto.
Qed.
Lemma sim_skrock_loop : forall fuel i j X d x dv hw w, good hw w -> holds (hw_heap hw) [(X, x); (d, dv)] ->
  sim fr (h_skrock_loop o ho prm nV nD fuel i j X d) (skrock_loop o prm fuel i j x dv) hw w (fun _ _ _ => True).
Proof.
  induction fuel as [|fuel IH]; intros i j X d x dv hw w Gd Hh; cbn [h_skrock_loop skrock_loop]; destruct (j <? p_nsamples prm).
  - split; [apply frame_refl|]. split; [exact Gd|exact Logic.I].
  - eapply sim_weaken; [apply sim_print; exact Gd|auto|auto].
  - eapply sim_seq; [apply sim_skrock_body; eauto|]. intros [[j1 X1] d1] [[j2 x2] d2] hw1 w1 F1 G1 [Ej Hh1]. cbn in Ej, Hh1. subst j2. apply IH; auto.
  - eapply sim_weaken; [apply sim_print; exact Gd|auto|auto].
Qed.

(** PxMALA *)
Lemma good_scalars : forall hw w acc deltas delta, good hw w ->
  good (mkHW (mkHI (hi_arr (hw_inst hw)) acc deltas delta (hi_out (hw_inst hw))) (hw_rng hw) (hw_heap hw))
       (mkWorld (mkInst (i_logPi (w_inst w)) (i_L2s (w_inst w)) (i_priors (w_inst w)) (i_preds (w_inst w)) (i_chain (w_inst w)) acc deltas delta (i_out (w_inst w))) (w_rng w)).
Proof.
  intros hw w acc deltas delta [[A [B [D [E [F [N S0]]]]]] [Pp [Ci Ca]]]. split; [|split; [exact Pp|split; [exact Ci|exact Ca]]].
  unfold same_state. cbn. repeat split; auto. 
Qed.
Lemma sim_append_acc : forall a hw w, good hw w -> sim fr (h_append_acc a) (append_acc a) hw w (fun _ _ h => h = hw_heap hw).
Proof.
  intros a hw w Gd. unfold sim, h_append_acc, append_acc, mbind, bind, mget, get_inst, mput, put_inst. cbn [fst snd].
  pose proof Gd as [[_ [B [D [E _]]]] _]. rewrite <- B. destruct (hi_acc (hw_inst hw)) as [l|]; cbn; (split; [apply frame_refl|]); (split; [|reflexivity]); [|exact Gd].
  unfold mset_acc, set_acc. rewrite <- D, <- E. apply good_scalars. exact Gd.
Qed.
Lemma sim_tune : forall i hw w, good hw w -> sim fr (h_tune_delta o i) (tune_delta o i) hw w (fun _ _ h => h = hw_heap hw).
Proof.
  intros i hw w Gd. unfold sim, h_tune_delta, tune_delta, read_attr, mbind, bind, mget, get_inst, mput, put_inst. cbn [fst snd].
  pose proof Gd as [[_ [B [D [E _]]]] _]. rewrite <- B. destruct (hi_acc (hw_inst hw)) as [l|] eqn:El; [|cbn; split; [apply frame_refl|split; [exact Gd|reflexivity]]].
  destruct (py_index l i) as [a|e]; cbn; (split; [apply frame_refl|]); (split; [|reflexivity]); [|exact Gd].
  unfold mset_delta, set_delta. rewrite <- B, <- D, <- E, El. apply good_scalars. exact Gd.
Qed.
Lemma sim_append_delta : forall hw w, good hw w -> sim fr h_append_delta append_delta hw w (fun _ _ h => h = hw_heap hw).
Proof.
  intros hw w Gd. unfold sim, h_append_delta, append_delta, mbind, bind, mget, get_inst, mput, put_inst. cbn [fst snd].
  pose proof Gd as [[_ [B [D [E _]]]] _]. rewrite <- D. destruct (hi_deltas (hw_inst hw)) as [l|]; cbn; (split; [apply frame_refl|]); (split; [|reflexivity]); [|exact Gd].
  unfold mset_deltas, set_deltas. rewrite <- B, <- E. apply good_scalars. exact Gd.
Qed.

Definition mala_list (c : hmala) (m : mala_state vec vec C) : list (aref * vec) :=
  [(hm_X c, m_X m); (hm_preds c, m_preds m); (hm_gradg c, m_gradg m); (hm_proxf c, m_proxf m)].
Definition relM (c : hmala) (m : mala_state vec vec C) (h : aheap) : Prop :=
  holds h (mala_list c m) /\ hm_logpi c = m_logpi m /\ hm_L2 c = m_L2 m /\ hm_prior c = m_prior m.
Lemma holds_incl : forall h L L', holds h L -> incl L' L -> holds h L'.
Proof. intros h L L' Hh Hi r v Hin. apply Hh, Hi. exact Hin. Qed.

Lemma sim_pxmala_body : forall tune i j c m hw w, good hw w -> relM c m (hw_heap hw) ->
  sim fr (h_pxmala_body o ho prm nV nD tune i j c) (pxmala_body o prm tune i j m) hw w (fun a b h => fst a = fst b /\ relM (snd a) (snd b) h).
Proof.
  intros tune i j c m hw w Gd [Hh [K1 [K2 K3]]]. unfold h_pxmala_body, pxmala_body.
  apply sim_get. assert (Ed : hi_delta (hw_inst hw) = i_delta (w_inst w)) by apply Gd. rewrite Ed.
  destruct (Hh (hm_X c) (m_X m) ltac:(cbn; auto)) as [AX RX]. destruct (Hh (hm_proxf c) (m_proxf m) ltac:(cbn; auto)) as [Ap Rp]. destruct (Hh (hm_gradg c) (m_gradg m) ltac:(cbn; auto)) as [Ag Rg].
  eapply sim_draw; [exact Gd|exact Hh|rewrite <- RX, <- Rp, <- Rg; apply (oa_step P ho o OA); auto; apply Gd|].
  intros Xp xp g h1 Hp1 G1 H1 Hc1. assert (N1 : ~ In (r_cell Xp) trk) by (eapply (trk_fresh _ _ _ Gd); exact Hc1).
  eapply sim_op; [apply (oa_forward P ho o OA)|exact G1|exact H1|left; reflexivity|]. cbn [hw_heap hw_inst hw_rng]. intros dp dpv h2 Hp2 G2 H2 Hc2.
  assert (N2 : ~ In (r_cell dp) trk) by (destruct Hc2 as [Hc2| ->]; [eapply (trk_fresh _ _ _ G1); exact Hc2|exact N1]).
  eapply sim_op; [apply (oa_gradg P ho o OA)|exact G2|exact H2|left; reflexivity|]. cbn [hw_heap hw_inst hw_rng]. intros gp gpv h3 Hp3 G3 H3 Hc3.
  assert (N3 : ~ In (r_cell gp) trk) by (destruct Hc3 as [Hc3| ->]; [eapply (trk_fresh _ _ _ G2); exact Hc3|exact N2]).
  eapply sim_op; [apply (oa_proxf P ho o OA)|exact G3|exact H3|right; right; left; reflexivity|]. cbn [hw_heap hw_inst hw_rng]. intros pp ppv h4 Hp4 G4 H4 Hc4.
  assert (N4 : ~ In (r_cell pp) trk) by (destruct Hc4 as [Hc4| ->]; [eapply (trk_fresh _ _ _ G3); exact Hc4|exact N1]).
  set (L := (pp, ppv) :: _) in *.
  assert (IX : In (hm_X c, m_X m) L) by (cbn; auto 10). assert (Ipx : In (hm_proxf c, m_proxf m) L) by (cbn; auto 10). assert (Igr : In (hm_gradg c, m_gradg m) L) by (cbn; auto 10).
  assert (IXp : In (Xp, xp) L) by (cbn; auto 10). assert (Ipp : In (pp, ppv) L) by (cbn; auto 10). assert (Igp : In (gp, gpv) L) by (cbn; auto 10). assert (Idp : In (dp, dpv) L) by (cbn; auto 10).
  eapply sim_val; [exact G4|exact H4| |].
  { cbn [hw_heap]. destruct (H4 _ _ IX) as [A1 R1]. destruct (H4 _ _ IXp) as [A2 R2]. destruct (H4 _ _ Ipx) as [A3 R3]. destruct (H4 _ _ Igr) as [A4 R4].
    rewrite <- R1, <- R2, <- R3, <- R4. apply (oa_logtrans P ho o OA); auto. apply G4. }
  cbn [hw_heap hw_inst hw_rng]. intros lt1 h5 Hp5 G5 H5.
  eapply sim_val; [exact G5|exact H5| |].
  { cbn [hw_heap]. destruct (H5 _ _ IX) as [A1 R1]. destruct (H5 _ _ IXp) as [A2 R2]. destruct (H5 _ _ Ipp) as [A3 R3]. destruct (H5 _ _ Igp) as [A4 R4].
    rewrite <- R1, <- R2, <- R3, <- R4. apply (oa_logtrans P ho o OA); auto. apply G5. }
  cbn [hw_heap hw_inst hw_rng]. intros lt2 h6 Hp6 G6 H6.
  eapply sim_val; [exact G6|exact H6| |].
  { cbn [hw_heap]. destruct (H6 _ _ IXp) as [A2 R2]. destruct (H6 _ _ Idp) as [A3 R3]. rewrite <- R2, <- R3. apply (oa_logpi P ho o OA); auto. apply G6. }
  cbn [hw_heap hw_inst hw_rng]. intros [[lp l2] pr] h7 Hp7 G7 H7.
  (* the uniform draw *)
  eapply sim_bind with (F1 := fr) (F2 := fr) (R1 := fun a b h => a = b /\ h = h7); [apply fr_trans|auto| |].
  { unfold sim, mdraw, with_rng, mheap. cbn [hw_rng hw_heap hw_inst w_rng w_inst]. destruct (o_logrand o g) as [u g']. cbn. split; [apply frame_refl|]. split; [|auto].
    apply (good_mono _ _ g' h7 G7). apply preserves_refl. }
  intros u u' hw8 w8 _ G8 [-> E8]. rewrite <- K1. rewrite <- E8 in H7. clear h7 Hp7 G7 E8.
  set (acc := o_kltb o u' _).
  eapply sim_seq with (R1 := fun a b h => h = hw_heap hw8 /\ relM a b h /\ (acc = true -> a = mkHMala Xp dp gp pp lp l2 pr)).
  { destruct acc.
    - eapply sim_seq; [apply sim_append_acc; exact G8|]. intros ? ? hw9 w9 ? G9 E9. apply sim_ret; auto using frame_refl. split; [exact E9|]. split; [|reflexivity].
      split; [|cbn; auto]. rewrite E9. eapply holds_incl; [exact H7|]. intros q [<-|[<-|[<-|[<-|[]]]]]; auto.
    - eapply sim_seq; [apply sim_append_acc; exact G8|]. intros ? ? hw9 w9 ? G9 E9. apply sim_ret; auto using frame_refl. split; [exact E9|]. split; [|discriminate].
      split; [|auto]. rewrite E9. eapply holds_incl; [exact H7|]. intros q [<-|[<-|[<-|[<-|[]]]]]; cbn; auto 10. }
  intros c' m' hw9 w9 _ G9 [E9 [[R9 [Q1 [Q2 Q3]]] Hacc]].
  eapply sim_seq with (R1 := fun _ _ h => h = hw_heap hw9).
  { destruct tune; [|apply sim_ret; auto using frame_refl]. eapply sim_seq; [apply sim_tune; exact G9|]. intros ? ? hwa wa ? Ga Ea.
    eapply sim_weaken; [apply sim_append_delta; exact Ga|auto|]. cbn. intros _ _ h ->. exact Ea. }
  intros ? ? hwa wa ? Ga Ea.
  eapply sim_seq with (R1 := fun a b h => a = b /\ relM c' m' h).
  { assert (Rm : relM c' m' (hw_heap hwa)) by (rewrite Ea; split; auto).
    destruct (p_nburn prm <=? i); [|apply sim_ret; auto using frame_refl]. destruct (grid_hit prm i && acc)%bool eqn:Eg; [|apply sim_ret; auto using frame_refl].
    apply andb_true_iff in Eg. destruct Eg as [_ Eacc]. specialize (Hacc Eacc).
    assert (Hn : forall r v, In (r, v) (mala_list c' m') -> ~ In (r_cell r) trk).
    { rewrite Hacc. intros r v [E|[E|[E|[E|[]]]]]; injection E as <- <-; assumption. }
    rewrite <- Q1, <- Q2, <- Q3. eapply sim_seq; [apply sim_tracking; [exact Ga| | |]|].
    - rewrite Ea. eapply holds_incl; [exact R9|]. intros q [<-|[<-|[]]]; cbn; auto.
    - apply (Hn _ (m_X m')). cbn; auto.
    - apply (Hn _ (m_preds m')). cbn; auto.
    - intros ? ? hwb wb Fb Gb _. apply sim_ret; auto using frame_refl. split; [reflexivity|]. split; [|auto]. eapply holds_frame; [exact Fb|rewrite Ea; exact R9|exact Hn]. }
  intros j1 j2 hwb wb Fb Gb [-> Rb].
  eapply sim_seq with (R1 := fun _ _ h => h = hw_heap hwb).
  { destruct (progress_due prm i); [|apply sim_ret; auto using frame_refl]. apply sim_get. destruct Rb as [_ [B1 [B2 B3]]]. rewrite <- B1, <- B2, <- B3.
    replace (i_acc (w_inst wb)) with (hi_acc (hw_inst hwb)) by apply Gb. apply sim_print. exact Gb. }
  intros ? ? hwc wc ? Gc Ec. apply sim_ret; auto using frame_refl. split; [reflexivity|]. cbn [snd]. rewrite Ec. exact Rb.
Qed.
Lemma sim_pxmala_loop : forall tune fuel i j c m hw w, good hw w -> relM c m (hw_heap hw) ->
  sim fr (h_pxmala_loop o ho prm nV nD tune fuel i j c) (pxmala_loop o prm tune fuel i j m) hw w (fun _ _ _ => True).
Proof.
  intros tune. induction fuel as [|fuel IH]; intros i j c m hw w Gd Hh; cbn [h_pxmala_loop pxmala_loop]; destruct (j <? p_nsamples prm).
  - split; [apply frame_refl|]. split; [exact Gd|exact Logic.I].
  - eapply sim_weaken; [apply sim_print; exact Gd|auto|auto].
  - eapply sim_seq; [apply sim_pxmala_body; eauto|]. intros [j1 c1] [j2 m2] hw1 w1 F1 G1 [Ej Hh1]. cbn in Ej, Hh1. subst j2. apply IH; auto.
  - eapply sim_weaken; [apply sim_print; exact Gd|auto|auto].
Qed.

(** ** runs *)
Variable start : HI.
Variable startv : I.
(** the choice of the first sample *)
Definition init_ok (h : aheap) : Prop := forall g,
  snd (ho_init ho start g) = snd (o_init o startv g) /\
  hspec (fst (ho_init ho start g)) h (fun out h' =>
    match fst (o_init o startv g) with
    | Ok x => exists r, out = Ok r /\ allocated h' r /\ rd h' r = x
    | Raise e => out = Raise e
    end).
Lemma sim_initial : forall hw w, good hw w -> init_ok (hw_heap hw) ->
  sim fr (h_initial_sample ho start) (initial_sample o startv) hw w (fun a b h => holds h [(fst a, fst b); (snd a, snd b)]).
Proof.
  intros hw w Gd Hi. unfold h_initial_sample, initial_sample.
  eapply sim_bind with (F1 := fr) (F2 := fr) (R1 := fun a b h => allocated h a /\ rd h a = b); [apply fr_trans|auto| |].
  - unfold sim, mdraw, mheap, with_rng. replace (w_rng w) with (hw_rng hw) by apply Gd. destruct (Hi (hw_rng hw)) as [Eg [Hp Hq]].
    destruct (ho_init ho start (hw_rng hw)) as [mm g1], (o_init o startv (hw_rng hw)) as [v g2]. cbn [fst snd hw_heap hw_inst hw_rng] in *. subst g2.
    destruct (mm (hw_heap hw)) as [out h1]. cbn [fst snd] in *. pose proof (good_mono hw w g1 h1 Gd Hp) as G1. destruct v as [x|e].
    + destruct Hq as [r [-> [A B]]]. cbn. split; [apply preserves_frame; exact Hp|]. split; [exact G1|]. auto.
    + subst out. cbn. split; [apply preserves_frame; exact Hp|]. split; [exact G1|]. reflexivity.
  - intros X x hw1 w1 F1 G1 [A B]. assert (Hh : holds (hw_heap hw1) [(X, x)]) by (apply holds_cons; auto; intros r v []).
    eapply sim_op; [apply (oa_forward P ho o OA)|exact G1|exact Hh|left; reflexivity|]. intros d dv h2 Hp2 G2 H2 _. apply sim_ret; auto using frame_refl.
    eapply holds_incl; [exact H2|]. intros q [<-|[<-|[]]]; cbn; auto.
Qed.
Lemma sim_myula_run : forall fuel hw w, good hw w -> init_ok (hw_heap hw) ->
  sim fr (h_myula_run o ho prm nV nD fuel start) (myula_run o prm fuel startv) hw w (fun _ _ _ => True).
Proof.
  intros fuel hw w Gd Hi. unfold h_myula_run, myula_run. eapply sim_seq; [apply sim_initial; auto|]. intros [X d] [x dv] hw1 w1 F1 G1 Hh. apply sim_myula_loop; auto.
Qed.
Lemma sim_skrock_run : forall fuel hw w, good hw w -> init_ok (hw_heap hw) ->
  sim fr (h_skrock_run o ho prm nV nD fuel start) (skrock_run o prm fuel startv) hw w (fun _ _ _ => True).
Proof.
  intros fuel hw w Gd Hi. unfold h_skrock_run, skrock_run. eapply sim_seq; [apply sim_initial; auto|]. intros [X d] [x dv] hw1 w1 F1 G1 Hh. apply sim_skrock_loop; auto.
Qed.
Lemma sim_pxmala_run : forall tune fuel hw w, good hw w -> init_ok (hw_heap hw) ->
  sim fr (h_pxmala_run o ho prm nV nD tune fuel start) (pxmala_run o prm tune fuel startv) hw w (fun _ _ _ => True).
Proof.
  intros tune fuel hw w Gd Hi. unfold h_pxmala_run, pxmala_run. apply sim_get.
  pose proof Gd as [[_ [B [D [E _]]]] _].
  eapply sim_seq with (R1 := fun _ _ h => h = hw_heap hw).
  { unfold sim, mput, put_inst. cbn. split; [apply frame_refl|]. split; [|reflexivity]. unfold mset_acc, set_acc. rewrite <- D, <- E. apply good_scalars. exact Gd. }
  intros ? ? hw1 w1 ? G1 E1. apply sim_get. pose proof G1 as [[_ [B1 [D1 [Ed1 _]]]] _].
  eapply sim_seq with (R1 := fun _ _ h => h = hw_heap hw1).
  { unfold sim, mput, put_inst. cbn. split; [apply frame_refl|]. split; [|reflexivity]. unfold mset_deltas, set_deltas. rewrite <- B1, <- Ed1. apply good_scalars. exact G1. }
  intros ? ? hw2 w2 ? G2 E2. eapply sim_seq; [apply sim_initial; auto; rewrite E2, E1; exact Hi|]. intros [X d] [x dv] hw3 w3 F3 G3 H3. cbn [fst snd] in H3.
  eapply sim_op; [apply (oa_gradg P ho o OA)|exact G3|exact H3|right; left; reflexivity|]. cbn [hw_heap hw_inst hw_rng]. intros gp gpv h4 Hp4 G4 H4 _.
  eapply sim_op; [apply (oa_proxf P ho o OA)|exact G4|exact H4|right; left; reflexivity|]. cbn [hw_heap hw_inst hw_rng]. intros pp ppv h5 Hp5 G5 H5 _.
  destruct (H5 X x ltac:(cbn; auto)) as [AX RX]. destruct (H5 d dv ltac:(cbn; auto)) as [Ad Rd].
  eapply sim_val; [exact G5|exact H5|cbn [hw_heap]; rewrite <- RX, <- Rd; apply (oa_logpi P ho o OA); auto; apply G5|].
  cbn [hw_heap hw_inst hw_rng]. intros [[lp l2] pr] h6 Hp6 G6 H6. apply sim_pxmala_loop; auto. split; [|auto]. eapply holds_incl; [exact H6|].
  intros q [<-|[<-|[<-|[<-|[]]]]]; cbn; auto.
Qed.
End Sim.
