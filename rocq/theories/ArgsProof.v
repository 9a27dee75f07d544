(** Proofs for C70: words, and the main loop of argparse as a scan. *)
From Coq Require Import List ZArith Lia Bool Ascii String Wf_nat.
From Verif Require Import Args ArgsSpec.
Import ListNotations.
Open Scope list_scope.
Notation length := List.length.
Notation append := String.append.

(** *** strings *)
Lemma append_assoc : forall a b c, append (append a b) c = append a (append b c).
Proof. induction a as [|x a IH]; intros; cbn; [reflexivity|now rewrite IH]. Qed.
Lemma append_nil : forall a, append a "" = a.
Proof. induction a as [|x a IH]; cbn; [reflexivity|now rewrite IH]. Qed.
Lemma append_inj : forall a b c, append a b = append a c -> b = c.
Proof. induction a as [|x a IH]; intros b c H; cbn in H; [exact H|]. injection H as H. auto. Qed.
Lemma prefix_spec : forall p s, prefix p s = true <-> exists t, s = append p t.
Proof.
  induction p as [|c p IH]; intros s.
  - cbn. split; [intros _; exists s; reflexivity|intros _; destruct s; reflexivity].
  - destruct s as [|d s]; cbn.
    + split; [discriminate|intros (t & H); discriminate].
    + destruct (ascii_dec c d) as [->|N].
      * rewrite IH. split; intros (t & H); exists t; [now rewrite H|now injection H].
      * split; [discriminate|intros (t & H); injection H as H _; congruence].
Qed.
Lemma eq_cons : forall c s, contains_eq (String c s) <-> c = "="%char \/ contains_eq s.
Proof.
  intros c s. split.
  - intros ([|x xs] & y & H); cbn in H; injection H as -> H; [left; reflexivity|right]. exists xs, y. exact H.
  - intros [-> | (x & y & ->)]; [exists ""%string, s; reflexivity|exists (String c x), y; reflexivity].
Qed.
Lemma eq_nil : ~ contains_eq "".
Proof. intros ([|] & y & H); discriminate. Qed.
Lemma partition_spec : forall s,
  match partition_eq s with
  | Some (a, b) => s = append a (append "=" b) /\ ~ contains_eq a
  | None => ~ contains_eq s
  end.
Proof.
  induction s as [|c s IH]; [exact eq_nil|]. cbn [partition_eq]. destruct (Ascii.eqb_spec c "="%char) as [->|N].
  - split; [reflexivity|exact eq_nil].
  - destruct (partition_eq s) as [(a & b)|]; cbn [option_map fst snd].
    + destruct IH as (-> & H). split; [reflexivity|]. rewrite eq_cons. tauto.
    + rewrite eq_cons. tauto.
Qed.
Lemma split_unique : forall a b a' b', append a (append "=" b) = append a' (append "=" b') -> ~ contains_eq a -> ~ contains_eq a' -> a = a' /\ b = b'.
Proof.
  induction a as [|c a IH]; intros b [|c' a'] b' H N N'; cbn in H.
  - injection H as H. auto.
  - injection H as <- H. exfalso. apply N'. rewrite eq_cons. auto.
  - injection H as -> H. exfalso. apply N. rewrite eq_cons. auto.
  - injection H as <- H. rewrite eq_cons in N, N'. destruct (IH b a' b' H) as (-> & ->); auto.
Qed.
Lemma eq_in : forall a b, contains_eq (append a (append "=" b)).
Proof. intros a b. exists a, b. reflexivity. Qed.
Lemma before_unique : forall w p p', before_eq w p -> before_eq w p' -> p = p'.
Proof.
  intros w p p' (N & H) (N' & H'). destruct H as [-> | (e & ->)]; destruct H' as [H' | (e' & H')].
  - exact H'.
  - exfalso. apply N. rewrite H'. apply eq_in.
  - exfalso. apply N'. rewrite <- H'. apply eq_in.
  - apply (split_unique _ _ _ _ H' N N').
Qed.
Lemma space_spec : forall s, has_space s = true <-> contains_space s.
Proof.
  induction s as [|c s IH]; cbn [has_space].
  - split; [discriminate|]. intros ([|] & y & H); discriminate.
  - rewrite orb_true_iff, IH. destruct (Ascii.eqb_spec c " "%char) as [->|N].
    + split; [intros _; exists ""%string, s; reflexivity|auto].
    + split; [intros [H | (x & y & ->)]; [discriminate|exists (String c x), y; reflexivity]|].
      intros ([|x xs] & y & H); cbn in H; injection H as H1 H2; [congruence|]. right. exists xs, y. exact H2.
Qed.
Lemma digit_spec : forall c, is_digit c = true <-> digit c.
Proof.
  intros c. unfold is_digit. rewrite andb_true_iff, !Nat.leb_le. split.
  - intros (A & B). rewrite <- (ascii_nat_embedding c). replace (nat_of_ascii c) with (48 + (nat_of_ascii c - 48)) by lia. constructor. lia.
  - intros H. destruct H as [n H]. rewrite nat_ascii_embedding by lia. lia.
Qed.
Lemma skip_spec : forall s, exists d, digits d /\ s = append d (skip_digits s) /\ (forall c r, skip_digits s = String c r -> ~ digit c).
Proof.
  induction s as [|c s (d & D & E & N)]; cbn [skip_digits].
  - exists ""%string. split; [constructor|]. split; [reflexivity|discriminate].
  - destruct (is_digit c) eqn:G.
    + exists (String c d). split; [constructor; [apply digit_spec|]; auto|]. split; [cbn; congruence|exact N].
    + exists ""%string. split; [constructor|]. split; [reflexivity|]. intros c' r H. injection H as <- _. rewrite <- digit_spec. congruence.
Qed.
Lemma skip_digits_app : forall d t, digits d -> (forall c r, t = String c r -> ~ digit c) -> skip_digits (append d t) = t.
Proof.
  intros d t D. induction D as [|c s C D IH]; intros N; cbn.
  - destruct t as [|c r]; [reflexivity|]. cbn. destruct (is_digit c) eqn:G; [|reflexivity]. apply digit_spec in G. exfalso. eapply N; eauto.
  - rewrite (proj2 (digit_spec c) C). auto.
Qed.
Lemma not_digit_nl : ~ digit "010". Proof. rewrite <- digit_spec. discriminate. Qed.
Lemma not_digit_dot : ~ digit ".". Proof. rewrite <- digit_spec. discriminate. Qed.
Lemma digits_end_spec : forall s, digits_end s = true <-> exists c b, digit c /\ digits b /\ newline_end (String c b) s.
Proof.
  intros [|c s]; cbn [digits_end].
  - split; [discriminate|]. intros (c & b & _ & _ & [H | H]); discriminate.
  - rewrite andb_true_iff, digit_spec. split.
    + intros (C & E). destruct (skip_spec s) as (d & D & Es & _). unfold at_end in E. apply orb_true_iff in E.
      exists c, d. split; [exact C|]. split; [exact D|]. destruct E as [E | E]; apply String.eqb_eq in E; rewrite E in Es.
      * left. rewrite append_nil in Es. congruence.
      * right. cbn. congruence.
    + intros (c' & b & C & D & [H | H]); injection H as -> ->; (split; [exact C|]).
      * rewrite <- (append_nil b), skip_digits_app by (auto; discriminate). reflexivity.
      * rewrite skip_digits_app; [reflexivity|exact D|]. intros x r H. injection H as <- _. exact not_digit_nl.
Qed.
Lemma negative_spec : forall w, negative_number w = true <-> negative_literal w.
Proof.
  intros [|c r]; cbn [negative_number].
  - split; [discriminate|]. intros (c & a & b & _ & _ & _ & [[H|H]|[H|H]]); discriminate.
  - rewrite andb_true_iff, orb_true_iff, Ascii.eqb_eq, digits_end_spec. split.
    + intros (-> & [(c1 & b & C & B & H) | H]).
      * exists c1, ""%string, b. split; [constructor|]. split; [exact C|]. split; [exact B|]. left.
        destruct H as [-> | ->]; [left|right]; reflexivity.
      * destruct (skip_spec r) as (d & D & E & _). destruct (skip_digits r) as [|x r'] eqn:K; [discriminate|]. apply andb_true_iff in H. destruct H as (X & Y).
        apply Ascii.eqb_eq in X. apply digits_end_spec in Y. destruct Y as (c1 & b & C & B & H). subst x. exists c1, d, b. split; [exact D|]. split; [exact C|]. split; [exact B|]. right.
        destruct H as [-> | ->]; [left|right]; rewrite E; cbn; [reflexivity|]. rewrite append_assoc. reflexivity.
    + intros (c0 & a & b & A & C & B & [H|H]).
      * assert (c = dash /\ exists b', r = String c0 b' /\ newline_end (String c0 b) r) as (-> & b' & -> & H').
        { destruct H as [H | H]; injection H as -> ->; (split; [reflexivity|]); eexists; (split; [reflexivity|]); [left|right]; reflexivity. }
        split; [reflexivity|]. left. exists c0, b. auto.
      * assert (c = dash /\ exists t, r = append a (String "." t) /\ newline_end (String c0 b) t) as (-> & t & -> & H').
        { destruct H as [H | H]; cbn in H; injection H as -> ->; (split; [reflexivity|]); [exists (String c0 b)|exists (append (String c0 b) (String "010" ""))]; (split; [|red; auto]); [reflexivity|]. rewrite append_assoc. reflexivity. }
        split; [reflexivity|]. right. rewrite skip_digits_app; [|exact A|]. 
        -- rewrite Ascii.eqb_refl. cbn [andb]. apply digits_end_spec. exists c0, b. auto.
        -- intros x q E. injection E as <- _. exact not_digit_dot.
Qed.

Section Words.
Context {F : Type}.
Notation parser := (@parser F).
Notation action := (@action F).
Variable P : parser.
Hypothesis U : usual P.

Lemma option_actions_in : forall s a, In (s, a) (option_actions P) <-> option_of P s a.
Proof.
  intros s a. unfold option_actions, option_of. rewrite in_flat_map. split.
  - intros (x & H & K). apply in_map_iff in K. destruct K as (y & E & K). injection E as -> ->. auto.
  - intros (H & K). exists a. split; [exact H|]. apply in_map_iff. exists s. auto.
Qed.
Lemma option_strings : map fst (option_actions P) = flat_map a_strings P.
Proof.
  unfold option_actions. clear. induction P as [|a l IH]; [reflexivity|]. cbn. rewrite map_app, IH, map_map. cbn. now rewrite map_id.
Qed.
Lemma nodup_options : NoDup (map fst (option_actions P)).
Proof. rewrite option_strings. apply U. Qed.
Lemma is_option_in : forall s, is_option_string P s <-> In s (map fst (option_actions P)).
Proof.
  intros s. split.
  - intros (a & H). apply option_actions_in in H. apply in_map_iff. exists (s, a). auto.
  - intros H. apply in_map_iff in H. destruct H as ((x & a) & <- & H). exists a. apply option_actions_in. exact H.
Qed.
Lemma nodup_fst : forall (l : list (string * action)) s a b, NoDup (map fst l) -> In (s, a) l -> In (s, b) l -> a = b.
Proof.
  induction l as [|(x & c) l IH]; intros s a b N A B; [destruct A|]. inversion N as [|? ? N1 N2]; subst. cbn in A, B.
  assert (G : forall d, In (x, d) l -> False) by (intros d H; apply N1; apply in_map_iff; exists (x, d); auto).
  destruct A as [A|A], B as [B|B].
  - congruence.
  - exfalso. apply (G b). replace x with s by congruence. exact B.
  - exfalso. apply (G a). replace x with s by congruence. exact A.
  - exact (IH s a b N2 A B).
Qed.
Lemma option_unique : forall o a b, option_of P o a -> option_of P o b -> a = b.
Proof. intros o a b A B. apply option_actions_in in A, B. eapply nodup_fst; eauto. exact nodup_options. Qed.
Lemma find_option_spec : forall s, match find_option P s with Some a => option_of P s a | None => ~ is_option_string P s end.
Proof.
  intros s. unfold find_option. destruct (find _ _) as [(x & a)|] eqn:E; cbn.
  - apply find_some in E. destruct E as (I & E). cbn in E. apply String.eqb_eq in E. subst x. apply option_actions_in. exact I.
  - intros (a & H). apply option_actions_in in H. apply (find_none _ _ E) in H. cbn in H. rewrite String.eqb_refl in H. discriminate.
Qed.
Lemma find_option_some : forall o a, option_of P o a -> find_option P o = Some a.
Proof.
  intros o a H. assert (S := find_option_spec o). destruct (find_option P o) as [b|]; [f_equal; eapply option_unique; eauto|].
  exfalso. apply S. exists a. exact H.
Qed.
Lemma option_shape : forall o, is_option_string P o -> (o = "-h" \/ exists c n, o = append "--" (String c n))%string.
Proof. intros o (a & H). destruct U as (_ & _ & _ & H0 & _). apply (H0 o a H). Qed.
Lemma option_noeq : forall o, is_option_string P o -> ~ contains_eq o.
Proof. intros o (a & H). destruct U as (_ & _ & _ & H0 & _). apply (H0 o a H). Qed.

(** *** readings *)
Lemma reads_before : forall w o e, reads P w o e -> exists p, before_eq w p /\ (p = o \/ abbreviates P p o) /\ w = match e with None => p | Some x => append p (append "=" x) end.
Proof.
  intros w o e (_ & _ & p & H & N & E). exists p. split; [|auto]. split; [exact N|]. destruct e; [right; eauto|left; exact E].
Qed.
Lemma reads_unique : forall w o e o' e', reads P w o e -> reads P w o' e' -> o = o' /\ e = e'.
Proof.
  intros w o e o' e' H H'. assert (IO : is_option_string P o) by apply H. assert (IO' : is_option_string P o') by apply H'.
  destruct (reads_before _ _ _ H) as (p & B & C & E). destruct (reads_before _ _ _ H') as (p' & B' & C' & E').
  assert (p' = p) by (eapply before_unique; eauto). subst p'. split.
  - destruct C as [-> | C], C' as [C' | C'].
    + exact C'.
    + exfalso. apply C'. exact IO.
    + subst o'. exfalso. apply C. exact IO'.
    + destruct C as (_ & _ & _ & _ & C). symmetry. apply C; [exact IO'|]. apply C'.
  - destruct e as [x|], e' as [x'|]; auto.
    + rewrite E in E'. apply append_inj in E'. cbn in E'. injection E' as ->. reflexivity.
    + exfalso. apply (proj1 B). rewrite <- E', E. apply eq_in.
    + exfalso. apply (proj1 B). rewrite <- E, E'. apply eq_in.
Qed.
Lemma reads_dash : forall w o e, reads P w o e -> exists c r, w = String "-" (String c r).
Proof.
  intros w o e H. assert (IO : is_option_string P o) by apply H. destruct (reads_before _ _ _ H) as (p & _ & C & E).
  assert (exists c r, p = String "-" (String c r)) as (c & r & ->).
  { destruct C as [-> | (_ & (r & ->) & _)].
    - destruct (option_shape _ IO) as [-> | (c & n & ->)]; cbn; eauto.
    - cbn. eauto. }
  destruct e; rewrite E; cbn; eauto.
Qed.
Lemma ambiguous_dash : forall w, ambiguous P w -> exists r, w = append "--" r.
Proof.
  intros w (p & o & o' & r & r' & (_ & [-> | (e & ->)]) & _ & (s & ->) & _); [eauto|]. exists (append s (append "=" e)). cbn. reflexivity.
Qed.
Lemma reads_not_ambiguous : forall w o e, reads P w o e -> ~ ambiguous P w.
Proof.
  intros w o e H (p' & o1 & o2 & r1 & r2 & B' & N & D & I1 & I2 & NE & E1 & E2).
  assert (IO : is_option_string P o) by apply H. destruct (reads_before _ _ _ H) as (p & B & C & E).
  assert (p' = p) by (eapply before_unique; eauto). subst p'. destruct C as [-> | (_ & _ & _ & _ & C)]; [auto|].
  apply NE. rewrite (C o1), (C o2); eauto.
Qed.
Lemma short_not_reads : forall w o e, short_help w -> ~ reads P w o e.
Proof.
  intros w o e (c & t & -> & NC) H. assert (IO : is_option_string P o) by apply H. destruct (reads_before _ _ _ H) as (p & B & C & E).
  destruct C as [-> | (_ & (r & ->) & _)]; [|destruct e; cbn in E; injection E as E; discriminate].
  destruct (option_shape _ IO) as [-> | (d & n & ->)]; destruct e as [x|]; cbn in E; try discriminate. injection E as -> _. congruence.
Qed.
Lemma short_not_ambiguous : forall w, short_help w -> ~ ambiguous P w.
Proof. intros w (c & e & -> & _) H. apply ambiguous_dash in H. destruct H as (r & H). discriminate. Qed.
Lemma plain_not : forall w, plain P w -> w <> "--"%string /\ (forall o e, ~ reads P w o e) /\ ~ ambiguous P w /\ ~ short_help w.
Proof.
  intros w [-> | [-> | [(c & r & -> & N) | H]]]; [| | |tauto].
  - split; [discriminate|]. split; [intros o e H; apply reads_dash in H; destruct H as (c & r & H); discriminate|].
    split; [intros H; apply ambiguous_dash in H; destruct H as (r & H); discriminate|intros (c & e & H & _); discriminate].
  - split; [discriminate|]. split; [intros o e H; apply reads_dash in H; destruct H as (c & r & H); discriminate|].
    split; [intros H; apply ambiguous_dash in H; destruct H as (r & H); discriminate|intros (c & e & H & _); discriminate].
  - split; [intros H; injection H as -> _; congruence|]. split; [intros o e H; apply reads_dash in H; destruct H as (d & q & H); injection H as -> _; congruence|].
    split; [intros H; apply ambiguous_dash in H; destruct H as (q & H); injection H as -> _; congruence|intros (d & e & H & _); injection H as -> _; congruence].
Qed.

(** what _parse_optional returns *)
Inductive shape (w : string) : option (@cls F) -> Prop :=
| sh_plain : plain P w -> shape w (Some TA)
| sh_reads : forall o a e, reads P w o e -> option_of P o a -> shape w (Some (TO (mkOt (Some a) o (option_map (pair "="%string) e))))
| sh_short : forall a c e, w = append "-h" (String c e) -> c <> "="%char -> option_of P "-h" a ->
    shape w (Some (TO (mkOt (Some a) "-h" (Some (""%string, String c e)))))
| sh_unknown : unknown P w -> shape w (Some (TO (mkOt None w None)))
| sh_ambiguous : ambiguous P w -> shape w None.

Lemma tuples_long : forall r, let s := append "--" r in ~ is_option_string P s -> s <> "--"%string ->
  (forall o e, partition_eq s = Some (o, e) -> ~ is_option_string P o) ->
  match get_option_tuples P s with
  | [] => (forall o e, ~ reads P s o e) /\ ~ ambiguous P s
  | [t] => shape s (Some (TO t))
  | _ => ambiguous P s
  end.
Proof.
  intros r s NS ND NP. unfold s at 1. cbn [append get_option_tuples]. rewrite Ascii.eqb_refl. fold (append "--" r). fold s.
  assert (PS := partition_spec s).
  set (pe := match partition_eq s with Some (a, b) => (a, Some ("="%string, b)) | None => (s, None) end).
  assert (B : exists p e, pe = (p, option_map (pair "="%string) e) /\ before_eq s p /\ s = match e with None => p | Some x => append p (append "=" x) end /\ ~ is_option_string P p /\ (exists q, p = append "--" q)).
  { unfold pe. destruct (partition_eq s) as [(a & b)|] eqn:E.
    - destruct PS as (PS & NA). exists a, (Some b). split; [reflexivity|]. split; [split; [exact NA|right; eauto]|]. split; [exact PS|]. split; [eapply NP; eauto|].
      unfold s in PS. destruct a as [|c0 [|c1 a]]; cbn in PS; [discriminate|discriminate|]. injection PS as <- <- PS. exists a. reflexivity.
    - exists s, None. split; [reflexivity|]. split; [split; [exact PS|left; reflexivity]|]. split; [reflexivity|]. split; [exact NS|]. exists r. reflexivity. }
  destruct B as (p & e & -> & B & Es & NO & DD).
  set (L := filter (fun en => prefix p (fst en)) (option_actions P)).
  assert (EL : forall ex, flat_map (fun en : string * action => if prefix p (fst en) then [mkOt (Some (snd en)) (fst en) ex] else []) (option_actions P) =
    map (fun en => mkOt (Some (snd en)) (fst en) ex) L).
  { intros ex. unfold L. induction (option_actions P) as [|en l IH]; [reflexivity|]. cbn. destruct (prefix p (fst en)); cbn; now rewrite IH. }
  rewrite EL. clear EL.
  assert (IL : forall o a, In (o, a) L <-> option_of P o a /\ exists t, o = append p t).
  { intros o a. unfold L. rewrite filter_In, option_actions_in. cbn. rewrite prefix_spec. reflexivity. }
  assert (NL : NoDup (map fst L)).
  { assert (N := nodup_options). unfold L. clear - N. induction (option_actions P) as [|en l IH]; [constructor|]. cbn in N. inversion N; subst. cbn. destruct (prefix p (fst en)); [|auto].
    cbn. constructor; [|auto]. intros H. apply in_map_iff in H. destruct H as (x & E & H). apply filter_In in H. apply H1. apply in_map_iff. exists x. tauto. }
  destruct L as [|(o & a) [|(o' & a') L']]; cbn [map].
  - assert (NN : forall o, is_option_string P o -> (exists t, o = append p t) -> False) by (intros o (a & H) T; apply (proj2 (IL o a)); auto).
    split.
    + intros o x H. assert (IO : is_option_string P o) by apply H. destruct (reads_before _ _ _ H) as (p' & B' & C & _). assert (p' = p) by (eapply before_unique; eauto). subst p'.
      destruct C as [-> | C]; [exact (NO IO)|]. apply (NN o IO). apply C.
    + intros (p' & o & o' & q & q' & B' & _ & _ & I1 & _ & _ & -> & _). assert (p' = p) by (eapply before_unique; eauto). subst p'. apply (NN _ I1). eauto.
  - destruct (proj1 (IL o a) (or_introl eq_refl)) as (HO & T). cbn [fst snd]. apply sh_reads; [|exact HO].
    split; [exact ND|]. split; [exists a; exact HO|]. exists p. split; [|split; [apply B|exact Es]]. right. split; [exact NO|]. split; [exact DD|]. split; [exists a; exact HO|]. split; [exact T|].
    intros o' (a' & H') T'. assert (I : In (o', a') [(o, a)]) by (apply IL; auto). destruct I as [I | []]. now injection I.
  - destruct (proj1 (IL o a) (or_introl eq_refl)) as (HO & t & T). destruct (proj1 (IL o' a') (or_intror (or_introl eq_refl))) as (HO' & t' & T').
    exists p, o, o', t, t'. split; [exact B|]. split; [exact NO|]. split; [exact DD|]. split; [exists a; exact HO|]. split; [exists a'; exact HO'|]. split; [|auto].
    cbn in NL. inversion NL as [|? ? NI _]. intros EO. apply NI. left. symmetry. exact EO.
Qed.

Lemma tuples_short : forall c r, let s := String "-" (String c r) in c <> "-"%char -> ~ is_option_string P s ->
  get_option_tuples P s = if Ascii.eqb c "h"%char then match find_option P "-h" with Some a => [mkOt (Some a) "-h"%string (Some (""%string, r))] | None => [] end else [].
Proof.
  intros c r s N NS. unfold s at 1. cbn [get_option_tuples]. destruct (Ascii.eqb_spec c dash) as [E|_]; [contradiction|].
  change (String "-" (String c r)) with s.
  assert (SH : forall en, In en (option_actions P) -> (fst en = "-h" \/ exists d n, fst en = append "--" (String d n))%string).
  { intros (o & a) I. cbn. apply option_shape. exists a. apply option_actions_in. exact I. }
  assert (NS' : forall en, In en (option_actions P) -> fst en <> s).
  { intros (o & a) I H. apply NS. exists a. cbn in H. subst o. apply option_actions_in. exact I. }
  assert (NPx : forall en, In en (option_actions P) -> prefix s (fst en) = false).
  { intros en I. destruct (prefix s (fst en)) eqn:E; [|reflexivity]. apply prefix_spec in E. destruct E as (t & E). exfalso.
    destruct (SH en I) as [H | (d & n & H)]; rewrite H in E; unfold s in E; cbn in E; injection E as E1 E2; [|congruence].
    destruct r; [|discriminate]. cbn in E2. apply (NS' en I). unfold s. rewrite H, E1. reflexivity. }
  assert (ND := nodup_options). unfold find_option. induction (option_actions P) as [|en l IH]; [cbn; destruct (Ascii.eqb c "h"); reflexivity|].
  cbn [flat_map find map] in *. rewrite (NPx en) by (left; reflexivity). inversion ND as [|? ? NI ND']; subst.
  assert (IH' := IH (fun x I => SH x (or_intror I)) (fun x I => NS' x (or_intror I)) (fun x I => NPx x (or_intror I)) ND').
  destruct (SH en (or_introl eq_refl)) as [H | (d & n & H)].
  - rewrite H. cbn [String.eqb]. rewrite Ascii.eqb_refl. destruct (Ascii.eqb_spec "h" c) as [<-|NC]; cbn [String.eqb andb].
    + rewrite Ascii.eqb_refl. cbn. f_equal. rewrite Ascii.eqb_refl in IH'. rewrite IH'. destruct (find _ l) as [(x & a)|] eqn:E; [|reflexivity].
      apply find_some in E. destruct E as (I & E). cbn in E. apply String.eqb_eq in E. subst x. exfalso. apply NI. rewrite H. apply in_map_iff. exists ("-h"%string, a). auto.
    + rewrite IH'. destruct (Ascii.eqb_spec c "h") as [->|_]; [congruence|]. reflexivity.
  - assert (E1 : String.eqb (fst en) (String "-" (String c "")) = false) by (apply String.eqb_neq; rewrite H; cbn; intros K; injection K as K _; congruence).
    assert (E2 : String.eqb (fst en) "-h" = false) by (apply String.eqb_neq; rewrite H; cbn; discriminate).
    rewrite E1, E2. exact IH'.
Qed.

Lemma parse_optional_shape : forall w, w <> "--"%string -> shape w (parse_optional P w).
Proof.
  intros w ND. unfold parse_optional. destruct w as [|c r]; [apply sh_plain; left; reflexivity|].
  destruct (Ascii.eqb_spec c dash) as [->|NC]; cbn [negb]; [|apply sh_plain; right; right; left; eauto].
  assert (FS := find_option_spec (String dash r)). destruct (find_option P (String dash r)) as [a|].
  { apply (sh_reads (String dash r) (String dash r) a None); [|exact FS]. split; [exact ND|]. split; [exists a; exact FS|]. exists (String dash r). split; [left; reflexivity|]. split; [|reflexivity].
    apply option_noeq. exists a. exact FS. }
  destruct (String.eqb_spec r "") as [->|NR]; [apply sh_plain; right; left; reflexivity|].
  set (w := String dash r) in *.
  assert (TU : (forall o e, partition_eq w = Some (o, e) -> ~ is_option_string P o) ->
    shape w match get_option_tuples P w with
            | _ :: _ :: _ => None | [t] => Some (TO t)
            | [] => if negative_number w then Some TA else if has_space w then Some TA else Some (TO (mkOt None w None)) end).
  { intros NP.
    assert (NONE : (forall o e, ~ reads P w o e) -> ~ ambiguous P w -> ~ short_help w -> shape w (if negative_number w then Some TA else if has_space w then Some TA else Some (TO (mkOt None w None)))).
    { intros H1 H2 H3. assert (Q1 := negative_spec w). assert (Q2 := space_spec w). destruct (negative_number w); [apply sh_plain; right; right; right; tauto|].
      destruct (has_space w); [apply sh_plain; right; right; right; tauto|]. apply sh_unknown. split; [exists r; reflexivity|]. split; [intros H; injection H as H; contradiction|].
      split; [exact ND|]. split; [exact H1|]. split; [exact H2|]. split; [exact H3|]. split; [rewrite <- Q1; discriminate|rewrite <- Q2; discriminate]. }
    destruct r as [|c r]; [contradiction|]. destruct (Ascii.eqb_spec c "-"%char) as [->|NC].
    - assert (T := tuples_long r FS ND NP). change (append "--" r) with w in T. destruct (get_option_tuples P w) as [|t [|]]; [|exact T|apply sh_ambiguous; exact T].
      apply NONE; try tauto. intros (d & e & H & _). discriminate.
    - assert (TS : _) by exact (tuples_short c r NC FS). cbv zeta in TS. change (String "-" (String c r)) with w in TS. rewrite TS. clear TS. destruct (Ascii.eqb_spec c "h"%char) as [->|NH].
      + assert (FH := find_option_spec "-h"). destruct (find_option P "-h") as [a|]; [|exfalso; apply FH; apply U].
        destruct r as [|d r]; [exfalso; apply FS; exists a; exact FH|]. apply (sh_short w a d r); [reflexivity| |exact FH].
        intros ->. apply (NP "-h"%string r); [reflexivity|]. exists a. exact FH.
      + apply NONE.
        * intros o e H. assert (IO : is_option_string P o) by apply H. destruct (reads_before _ _ _ H) as (p & _ & C & E).
          destruct C as [-> | (_ & (q & ->) & _)]; [|destruct e; unfold w in E; cbn in E; injection E as E; congruence].
          destruct (option_shape _ IO) as [-> | (d & n & ->)]; destruct e; unfold w in E; cbn in E; injection E as E1 E2; congruence.
        * intros H. apply ambiguous_dash in H. destruct H as (q & H). unfold w in H. cbn in H. injection H as H _. congruence.
        * intros (d & e & H & _). unfold w in H. cbn in H. injection H as H _. congruence. }
  assert (PS := partition_spec w). destruct (partition_eq w) as [(o & e)|].
  - assert (FO := find_option_spec o). destruct (find_option P o) as [a|].
    + apply (sh_reads w o a (Some e)); [|exact FO]. split; [exact ND|]. split; [exists a; exact FO|]. exists o. split; [left; reflexivity|]. tauto.
    + apply TU. intros o' e' H. injection H as <- <-. exact FO.
  - apply TU. discriminate.
Qed.

Lemma po_plain : forall w, plain P w -> parse_optional P w = Some TA.
Proof.
  intros w H. destruct (plain_not w H) as (N1 & N2 & N3 & N4). assert (S := parse_optional_shape w N1). inversion S as [| o a e R| a c e E NC| K | K]; subst; auto.
  - exfalso. eapply N2; eauto.
  - exfalso. apply N4. exists c, e. auto.
  - exfalso. destruct K as ((r & ->) & K1 & _ & K2 & _ & _ & K3 & K4). destruct H as [H|[H|[(c & q & H & K)|H]]]; [discriminate H|contradiction| |tauto]. cbn in H. congruence.
  - exfalso. auto.
Qed.
Lemma po_reads : forall w o e a, reads P w o e -> option_of P o a -> parse_optional P w = Some (TO (mkOt (Some a) o (option_map (pair "="%string) e))).
Proof.
  intros w o e a H A. assert (ND : w <> "--"%string) by apply H. assert (S := parse_optional_shape w ND). inversion S as [K | o' a' e' R A' | a' c e' E NC | K | K].
  - exfalso. apply plain_not in K. eapply (proj1 (proj2 K)); eauto.
  - destruct (reads_unique _ _ _ _ _ H R) as (<- & <-). rewrite (option_unique _ _ _ A A'). reflexivity.
  - exfalso. apply (short_not_reads w o e); [exists c, e'; auto|exact H].
  - exfalso. destruct K as (_ & _ & _ & K & _). eapply K; eauto.
  - exfalso. eapply reads_not_ambiguous; eauto.
Qed.
Lemma po_unknown : forall w, unknown P w -> parse_optional P w = Some (TO (mkOt None w None)).
Proof.
  intros w H. assert (H' := H). destruct H as ((r & Er) & N1 & N2 & N3 & N4 & N5 & N6 & N7). assert (S := parse_optional_shape w N2). inversion S as [K | o' a' e' R A' | a' c e' E NC | K | K]; auto.
  - exfalso. destruct K as [K|[K|[(c & q & K & K')|K]]]; [rewrite Er in K; discriminate K|contradiction| |tauto]. rewrite Er in K. cbn in K. congruence.
  - exfalso. eapply N3; eauto.
  - exfalso. apply N5. exists c, e'. auto.
  - exfalso. auto.
Qed.
Lemma po_short : forall a c e, c <> "="%char -> option_of P "-h" a ->
  parse_optional P (append "-h" (String c e)) = Some (TO (mkOt (Some a) "-h" (Some (""%string, String c e)))).
Proof.
  intros a c e NC A. remember (append "-h" (String c e)) as w eqn:Ew. assert (SH : short_help w) by (exists c, e; auto).
  assert (S : shape w (parse_optional P w)) by (apply parse_optional_shape; subst w; discriminate).
  inversion S as [K | o' a' e' R A' | a' c' e' E NC' A' | K | K].
  - exfalso. apply plain_not in K. tauto.
  - exfalso. eapply short_not_reads; eauto.
  - rewrite Ew in E. cbn in E. injection E as <- <-. rewrite (option_unique _ _ _ A A'). reflexivity.
  - exfalso. destruct K as (_ & _ & _ & _ & _ & K & _). auto.
  - exfalso. eapply short_not_ambiguous; eauto.
Qed.
Lemma po_none : forall w, w <> "--"%string -> (parse_optional P w = None <-> ambiguous P w).
Proof.
  intros w ND. assert (S := parse_optional_shape w ND). split; intros H.
  - rewrite H in S. inversion S. assumption.
  - inversion S as [K | o' a' e' R A' | a' c e' E NC | K | K]; auto; exfalso.
    + apply plain_not in K. tauto.
    + eapply reads_not_ambiguous; eauto.
    + apply (short_not_ambiguous w); [exists c, e'; auto|exact H].
    + destruct K as (_ & _ & _ & _ & K & _). auto.
Qed.
End Words.

(** *** the loop *)
Section Loop.
Context {F : Type}.
Notation parser := (@parser F).
Notation action := (@action F).
Notation value := (@value F).
Notation word := (@word F).
Notation namespace := (@namespace F).
Notation cmdline := (@cmdline F).
Variables (to_float : string -> option F) (to_int : string -> option Z).
Notation parse_loop := (parse_loop to_float to_int).
Notation take_options := (take_options to_float to_int).
Notation convert := (convert to_float to_int).

Lemma many_none : forall n (l : list word), match_one l = None -> match_many (S n) l = None.
Proof. intros n l H. cbn. now rewrite H. Qed.
Lemma partial_greedy : forall n (l : list word),
  match_partial (S n) l = match match_one l with None => [] | Some k => k :: match_partial n (skipn k l) end.
Proof.
  induction n as [|n IH]; intros l.
  - cbn. destruct (match_one l); reflexivity.
  - change (match_partial (S (S n)) l) with (match match_many (S (S n)) l with Some c => c | None => match_partial (S n) l end).
    rewrite IH. destruct (match_one l) as [k|] eqn:E; [|now rewrite many_none].
    change (match_many (S (S n)) l) with (match match_one l with Some k => option_map (cons k) (match_many (S n) (skipn k l)) | None => None end).
    rewrite E. change (match_partial (S n) (skipn k l)) with (match match_many (S n) (skipn k l) with Some c => c | None => match_partial n (skipn k l) end).
    destruct (match_many (S n) (skipn k l)); reflexivity.
Qed.
Lemma consume_nil : forall ns (l : list word), consume_positionals [] ns l = ([], ns, l).
Proof. reflexivity. Qed.
Lemma consume_cons : forall a pos ns (l : list word),
  consume_positionals (a :: pos) ns l =
  match match_one l with
  | None => (a :: pos, ns, l)
  | Some k => consume_positionals pos (set_attr ns (a_dest a) (positional_value (map fst (firstn k l)))) (skipn k l)
  end.
Proof.
  intros a pos ns l. unfold consume_positionals. cbn [List.length]. rewrite partial_greedy. destruct (match_one l); reflexivity.
Qed.
Lemma match_one_pos : forall (l : list word) k, match_one l = Some k -> 0 < k /\ l <> [].
Proof.
  intros l k. unfold match_one. destruct l as [|w l]; [cbn; discriminate|]. destruct (skipn _ _) as [|(x & [| |]) r]; try discriminate. intros H. injection H as <-. split; [lia|discriminate].
Qed.
Lemma consume_cases : forall pos ns (l : list word),
  consume_positionals pos ns l = (pos, ns, l) \/ length (snd (consume_positionals pos ns l)) < length l.
Proof.
  induction pos as [|a pos IH]; intros ns l; [left; reflexivity|]. rewrite consume_cons. destruct (match_one l) as [k|] eqn:E; [|left; reflexivity]. right.
  destruct (match_one_pos _ _ E) as (K & N). assert (L : length (skipn k l) < length l).
  { rewrite skipn_length. destruct l; [congruence|]. cbn [List.length]. lia. }
  set (v := positional_value _). destruct (IH (set_attr ns (a_dest a) v) (skipn k l)) as [H | H]; [rewrite H; exact L|lia].
Qed.
Lemma to_option_len : forall (l : list word), length (snd (to_option l)) <= length l.
Proof. induction l as [|w l IH]; [cbn; lia|]. cbn [to_option]. destruct (is_option w); [cbn; lia|]. destruct (to_option l). cbn in *. lia. Qed.
Lemma to_option_head : forall (l : list word), existsb is_option l = true -> exists s t r, snd (to_option l) = (s, TO t) :: r.
Proof.
  induction l as [|(s & c) l IH]; [discriminate|]. cbn [existsb to_option]. destruct c as [| |t]; cbn.
  - intros H. destruct (IH H) as (s' & t & r & E). exists s', t, r. destruct (to_option l). exact E.
  - intros H. destruct (IH H) as (s' & t & r & E). exists s', t, r. destruct (to_option l). exact E.
  - intros _. exists s, t, l. reflexivity.
Qed.
Lemma consume_optional_len : forall P s t rest acts (rest' : list word) ex, consume_optional P s t rest = Some (acts, rest', ex) -> length rest' <= length rest.
Proof.
  intros P s t rest acts rest' ex. unfold consume_optional.
  assert (O : forall acc (a : action) (q : list (action * list string) * list word * list string), (if takes_value (a_kind a) then match rest with (v, TA) :: r => Some (acc ++ [(a, [v])], r, []) | _ => None end else Some (acc ++ [(a, [])], rest, [])) = Some q -> length (snd (fst q)) <= length rest).
  { intros acc a q. destruct (takes_value _); [|intros H; injection H as <-; cbn; lia]. destruct rest as [|(v & [| |]) r]; try discriminate. intros H. injection H as <-. cbn. lia. }
  destruct (t_action t) as [a|]; [|intros H; injection H as <- <- <-; lia].
  destruct (t_explicit t) as [(sep & e)|].
  - destruct (consume_explicit P a (t_string t) sep e []) as [|l x|acc a']; [discriminate|intros H; injection H as <- <- <-; lia|]. intros H. apply (O acc a' _ H).
  - intros H. apply (O [] a _ H).
Qed.

(** the loop with enough fuel *)
Definition optional_step (P : parser) (go : list word -> list action -> namespace -> list string -> cmdline) (l : list word) pos ns extras : cmdline :=
  match l with
  | (s, TO t) :: rest =>
      match consume_optional P s t rest with
      | None => Exit2
      | Some (acts, rest', ex) =>
          match take_options acts ns with Failed => Exit2 | Helped => Exit0 | Done ns' => go rest' pos ns' (extras ++ ex) end
      end
  | _ => Exit2
  end.
Definition headed (l : list word) : bool := match l with (_, TO _) :: _ => true | _ => false end.
Lemma loop_eq : forall P f l pos ns extras,
  parse_loop P (S f) l pos ns extras =
  if existsb is_option l then
    if headed l then optional_step P (parse_loop P f) l pos ns extras
    else
      let '(pos', ns', l') := consume_positionals pos ns l in
      if (length l' <? length l)%nat then parse_loop P f l' pos' ns' extras
      else let (strings, next) := to_option l in optional_step P (parse_loop P f) next pos ns (extras ++ strings)
  else
    let '(pos', ns', l') := consume_positionals pos ns l in
    match pos', extras ++ map fst l' with [], [] => Parsed ns' | _, _ => Exit2 end.
Proof. intros P f l pos ns extras. cbn [Args.parse_loop]. destruct l as [|(s & [| |t]) l]; reflexivity. Qed.

Lemma optional_ext : forall P n (g h : list word -> list action -> namespace -> list string -> cmdline) l pos ns extras,
  length l <= n -> (forall l' p q e, length l' < n -> g l' p q e = h l' p q e) -> optional_step P g l pos ns extras = optional_step P h l pos ns extras.
Proof.
  intros P n g h l pos ns extras L H. unfold optional_step. destruct l as [|(s & [| |t]) rest]; auto.
  destruct (consume_optional P s t rest) as [((acts & rest') & ex)|] eqn:E; auto. destruct (take_options acts ns); auto. apply H. apply consume_optional_len in E. cbn [List.length] in L. lia.
Qed.
Lemma fuel_eq : forall P n f g l pos ns extras, length l <= n -> length l < f -> length l < g -> parse_loop P f l pos ns extras = parse_loop P g l pos ns extras.
Proof.
  intros P. induction n as [|n IH]; intros f g l pos ns extras L Lf Lg; (destruct f as [|f]; [lia|]); (destruct g as [|g]; [lia|]); rewrite !loop_eq.
  - destruct l; [|cbn in L; lia]. reflexivity.
  - destruct (existsb is_option l) eqn:X; [|reflexivity].
    assert (EX : forall l2 extras', length l2 <= length l -> optional_step P (parse_loop P f) l2 pos ns extras' = optional_step P (parse_loop P g) l2 pos ns extras').
    { intros l2 extras' L2. apply (optional_ext P (length l)); [exact L2|]. intros l' p q e L'. apply IH; lia. }
    destruct (headed l); [apply EX; lia|]. destruct (consume_positionals pos ns l) as ((pos' & ns') & l').
    destruct (Nat.ltb_spec (length l') (length l)); [apply IH; lia|]. assert (T := to_option_len l). destruct (to_option l) as (strings & next). apply EX. exact T.
Qed.
Definition PL (P : parser) (l : list word) (pos : list action) (ns : namespace) (extras : list string) : cmdline :=
  parse_loop P (S (length l)) l pos ns extras.
Lemma PL_fuel : forall P f l pos ns extras, length l < f -> parse_loop P f l pos ns extras = PL P l pos ns extras.
Proof. intros. unfold PL. apply (fuel_eq P (length l)); lia. Qed.
Lemma PL_eq : forall P l pos ns extras,
  PL P l pos ns extras =
  if existsb is_option l then
    if headed l then optional_step P (PL P) l pos ns extras
    else
      let '(pos', ns', l') := consume_positionals pos ns l in
      if (length l' <? length l)%nat then PL P l' pos' ns' extras
      else let (strings, next) := to_option l in optional_step P (PL P) next pos ns (extras ++ strings)
  else
    let '(pos', ns', l') := consume_positionals pos ns l in
    match pos', extras ++ map fst l' with [], [] => Parsed ns' | _, _ => Exit2 end.
Proof.
  intros P l pos ns extras. unfold PL at 1. rewrite loop_eq.
  assert (EX : forall l2 extras', length l2 <= length l -> optional_step P (parse_loop P (length l)) l2 pos ns extras' = optional_step P (PL P) l2 pos ns extras').
  { intros l2 extras' L2. apply (optional_ext P (length l)); [exact L2|]. intros l' p q e L'. apply PL_fuel. exact L'. }
  destruct (existsb is_option l); [|reflexivity]. destruct (headed l); [apply EX; lia|].
  destruct (consume_positionals pos ns l) as ((pos' & ns') & l'). destruct (Nat.ltb_spec (length l') (length l)); [apply PL_fuel; lia|].
  assert (T := to_option_len l). destruct (to_option l) as (strings & next). apply EX. exact T.
Qed.
(** the fuel suffices *)
Lemma PL_total : forall P n l pos ns extras, length l <= n -> PL P l pos ns extras <> Fuel.
Proof.
  intros P. induction n as [|n IH]; intros l pos ns extras L; rewrite PL_eq.
  - destruct l; [|cbn in L; lia]. cbn [existsb]. destruct (consume_positionals pos ns []) as ((pos' & ns') & l'). destruct pos', (extras ++ map fst l'); discriminate.
  - assert (O : forall l2 extras', length l2 <= length l -> optional_step P (PL P) l2 pos ns extras' <> Fuel).
    { intros l2 extras' L2. unfold optional_step. destruct l2 as [|(s & [| |t]) rest]; try discriminate.
      destruct (consume_optional P s t rest) as [((acts & rest') & ex)|] eqn:E; try discriminate. destruct (take_options acts ns); try discriminate. apply IH. apply consume_optional_len in E. cbn in L2. lia. }
    destruct (existsb is_option l).
    + destruct (headed l); [apply O; lia|]. destruct (consume_positionals pos ns l) as ((pos' & ns') & l').
      destruct (Nat.ltb_spec (length l') (length l)); [apply IH; lia|]. assert (T := to_option_len l). destruct (to_option l) as (strings & next). apply O. exact T.
    + destruct (consume_positionals pos ns l) as ((pos' & ns') & l'). destruct pos', (extras ++ map fst l'); discriminate.
Qed.

(** one word at a time *)
Lemma PL_nil : forall P pos ns extras, PL P [] pos ns extras = match pos, extras with [], [] => Parsed ns | _, _ => Exit2 end.
Proof.
  intros P pos ns extras. rewrite PL_eq. cbn [existsb]. destruct pos as [|a pos]; [rewrite consume_nil; cbn; now rewrite app_nil_r|].
  rewrite consume_cons. cbn. reflexivity.
Qed.
Lemma PL_option : forall P s t rest pos ns extras, PL P ((s, TO t) :: rest) pos ns extras = optional_step P (PL P) ((s, TO t) :: rest) pos ns extras.
Proof. intros. rewrite PL_eq. reflexivity. Qed.
Lemma pv_one : forall s, positional_value (F := F) [s] = late s.
Proof. intros s. unfold positional_value, late. cbn. destruct (String.eqb_spec s "--"); destruct (string_dec s "--"); congruence || reflexivity. Qed.
Definition starts_dashes (l : list word) : Prop := exists s r, l = (s, TD) :: r.
Lemma lead_none : forall l : list word, ~ starts_dashes l -> lead_dashes l = 0.
Proof. intros [|(s & [| |t]) l] H; try reflexivity. exfalso. apply H. exists s, l. reflexivity. Qed.
Lemma PL_arg : forall P s rest a pos ns extras, ~ starts_dashes rest ->
  PL P ((s, TA) :: rest) (a :: pos) ns extras = PL P rest pos (set_attr ns (a_dest a) (late s)) extras.
Proof.
  intros P s rest a pos ns extras N.
  assert (C : consume_positionals (a :: pos) ns ((s, TA) :: rest) = consume_positionals pos (set_attr ns (a_dest a) (late s)) rest).
  { rewrite consume_cons. unfold match_one. cbn [lead_dashes skipn]. rewrite (lead_none rest N). cbn [Nat.add firstn map fst skipn]. now rewrite pv_one. }
  rewrite PL_eq, C. cbn [existsb is_option snd orb headed]. set (ns1 := set_attr ns (a_dest a) (late s)).
  destruct (consume_cases pos ns1 rest) as [I | I].
  - rewrite I. cbn [List.length]. rewrite (proj2 (Nat.ltb_lt _ _)) by lia. destruct (existsb is_option rest) eqn:X; [reflexivity|].
    rewrite (PL_eq P rest), X, I. reflexivity.
  - rewrite (PL_eq P rest). destruct (existsb is_option rest) eqn:X; [|reflexivity].
    assert (H : headed rest = false).
    { destruct rest as [|(x & [| |t]) r]; try reflexivity. exfalso. destruct pos as [|b pos]; [rewrite consume_nil in I; cbn in I; lia|]. rewrite consume_cons in I. cbn in I. lia. }
    rewrite H. destruct (consume_positionals pos ns1 rest) as ((pos' & ns') & l'). cbn [snd List.length] in *. rewrite !(proj2 (Nat.ltb_lt _ _)) by lia. reflexivity.
Qed.
Lemma PL_extra : forall P s rest ns extras, PL P ((s, TA) :: rest) [] ns extras = PL P rest [] ns (extras ++ [s]).
Proof.
  intros P s rest ns extras. rewrite (PL_eq P (_ :: _)), (PL_eq P rest), !consume_nil. cbn [existsb is_option snd orb headed]. rewrite !Nat.ltb_irrefl. cbn [to_option is_option snd].
  destruct (existsb is_option rest) eqn:X.
  - destruct (headed rest) eqn:H.
    + destruct rest as [|(x & [| |t]) r]; try discriminate. cbn [to_option is_option snd fst]. reflexivity.
    + destruct (to_option rest) as (strings & next). cbn [fst]. now rewrite <- app_assoc.
  - cbn [map fst]. now rewrite <- app_assoc.
Qed.
Definition tas (b : list string) : list word := map (fun w => (w, TA)) b.
Lemma tas_no_dashes : forall b, ~ starts_dashes (tas b).
Proof. intros [|s b] (x & r & H); discriminate. Qed.
Lemma tas_no_option : forall b, existsb is_option (tas b) = false.
Proof. induction b; auto. Qed.
Lemma PL_end : forall P l pos ns extras, existsb is_option l = false ->
  PL P l pos ns extras = let '(pos', ns', l') := consume_positionals pos ns l in match pos', extras ++ map fst l' with [], [] => Parsed ns' | _, _ => Exit2 end.
Proof. intros P l pos ns extras H. now rewrite PL_eq, H. Qed.
Lemma PL_join : forall P s b a pos ns extras, s <> "--"%string ->
  PL P ((s, TA) :: ("--"%string, TD) :: tas b) (a :: pos) ns extras = PL P (tas b) pos (set_attr ns (a_dest a) (AStr s)) extras.
Proof.
  intros P s b a pos ns extras N. rewrite (PL_end P (_ :: _)), (PL_end P (tas b)) by (try apply tas_no_option; cbn; apply tas_no_option).
  rewrite consume_cons. unfold match_one. cbn [lead_dashes skipn]. rewrite (lead_none (tas b)) by apply tas_no_dashes. cbn [Nat.add firstn map fst skipn].
  unfold positional_value. cbn [remove_first]. rewrite (proj2 (String.eqb_neq s "--") N). cbn [String.eqb]. reflexivity.
Qed.
Lemma PL_new : forall P w b a pos ns extras,
  PL P (("--"%string, TD) :: (w, TA) :: tas b) (a :: pos) ns extras = PL P (tas b) pos (set_attr ns (a_dest a) (AStr w)) extras.
Proof.
  intros P w b a pos ns extras. rewrite (PL_end P (_ :: _)), (PL_end P (tas b)) by (try apply tas_no_option; cbn; apply tas_no_option).
  rewrite consume_cons. unfold match_one. cbn [lead_dashes skipn]. rewrite (lead_none (tas b)) by apply tas_no_dashes. cbn [Nat.add firstn map fst skipn].
  reflexivity.
Qed.
Lemma PL_dashes_end : forall P pos ns extras, PL P [("--"%string, TD)] pos ns extras = Exit2.
Proof.
  intros P pos ns extras. rewrite PL_end by reflexivity. destruct pos as [|a pos]; [rewrite consume_nil|rewrite consume_cons]; cbn; [|reflexivity]. destruct extras; reflexivity.
Qed.
Lemma PL_dashes_full : forall P b ns extras, PL P (("--"%string, TD) :: tas b) [] ns extras = Exit2.
Proof.
  intros P b ns extras. rewrite PL_end by (cbn; apply tas_no_option). rewrite consume_nil. cbn [map fst]. destruct extras; reflexivity.
Qed.
(** values for the positionals left *)
Fixpoint fill (pos : list action) (vals : list value) (ns : namespace) : option namespace :=
  match pos, vals with
  | [], [] => Some ns
  | a :: pos, v :: vals => fill pos vals (set_attr ns (a_dest a) v)
  | _, _ => None
  end.
Definition outcome (o : option namespace) : cmdline := match o with Some ns => Parsed ns | None => Exit2 end.
Definition clean (extras : list string) (c : cmdline) : cmdline := match extras with [] => c | _ => Exit2 end.
Lemma PL_tas : forall P b pos ns extras, PL P (tas b) pos ns extras = clean extras (outcome (fill pos (map late b) ns)).
Proof.
  intros P. induction b as [|s b IH]; intros pos ns extras.
  - cbn [tas map]. rewrite PL_nil. destruct pos, extras; reflexivity.
  - change (tas (s :: b)) with ((s, TA) :: tas b). destruct pos as [|a pos].
    + rewrite PL_extra, IH. cbn [map fill]. destruct extras; cbn; [|destruct b; reflexivity]. reflexivity.
    + rewrite PL_arg by apply tas_no_dashes. apply IH.
Qed.

(** *** words again *)
Variable P : parser.
Hypothesis U : usual P.
Definition PA (argv : list string) (pos : list action) (ns : namespace) (extras : list string) : cmdline :=
  match classify P argv with None => Exit2 | Some l => PL P l pos ns extras end.
Lemma parse_args_PA : forall argv, parse_args to_float to_int P argv = PA argv (positionals P) (defaults P) [].
Proof. intros argv. unfold parse_args, PA. destruct (classify P argv); reflexivity. Qed.
Lemma classify_word : forall w r, w <> "--"%string ->
  classify P (w :: r) = match parse_optional P w, classify P r with Some c, Some l => Some ((w, c) :: l) | _, _ => None end.
Proof. intros w r N. cbn [classify]. rewrite (proj2 (String.eqb_neq w "--") N). reflexivity. Qed.
Lemma classify_dashes : forall r, classify P ("--"%string :: r) = Some (("--"%string, TD) :: tas r).
Proof. reflexivity. Qed.
Lemma classify_starts : forall r l, classify P r = Some l -> (forall b, r <> "--"%string :: b) -> ~ starts_dashes l.
Proof.
  intros [|w r] l E N (s & q & H).
  - injection E as <-. discriminate.
  - assert (ND : w <> "--"%string) by (intros ->; exact (N r eq_refl)). rewrite classify_word in E by exact ND. assert (S := parse_optional_shape P U w ND).
    destruct (parse_optional P w) as [c|]; [|discriminate]. destruct (classify P r) as [l'|]; [|discriminate]. injection E as <-. injection H as -> -> ->. inversion S.
Qed.
Lemma word_cases : forall w, w <> "--"%string ->
  plain P w \/ (exists o e a, reads P w o e /\ option_of P o a) \/ (exists c e, w = append "-h" (String c e) /\ c <> "="%char) \/ unknown P w \/ ambiguous P w.
Proof.
  intros w N. assert (S := parse_optional_shape P U w N). inversion S as [K | o a e R A | a c e E NC A | K | K]; eauto 10.
Qed.
Lemma value_as_convert : forall k s v, value_as to_float to_int k s v <-> convert k s = Some v.
Proof.
  intros k s v. destruct k; cbn; try (split; [tauto|discriminate]).
  - split; [intros ->; reflexivity|congruence].
  - destruct (to_int s) as [z|]; cbn; split; [intros (y & E & ->); congruence|intros H; exists z; split; congruence|intros (y & E & _); discriminate|discriminate].
  - destruct (to_float s) as [z|]; cbn; split; [intros (y & E & ->); congruence|intros H; exists z; split; congruence|intros (y & E & _); discriminate|discriminate].
Qed.
Lemma with_value_takes : forall k, with_value k <-> takes_value k = true.
Proof. intros k. unfold with_value. destruct k; cbn; split; intros H; try discriminate; try reflexivity; auto; intuition discriminate. Qed.
Lemma take_option_value : forall (a : action) s ns, with_value (a_kind a) ->
  take_options [(a, [s])] ns = match convert (a_kind a) s with Some v => Done (set_attr ns (a_dest a) v) | None => Failed end.
Proof. intros a s ns H. unfold Args.take_options, take_option. destruct H as [H | [H | H]]; rewrite H; destruct (convert _ s); reflexivity. Qed.

Lemma PA_nil : forall pos ns extras, PA [] pos ns extras = match pos, extras with [], [] => Parsed ns | _, _ => Exit2 end.
Proof. intros. apply PL_nil. Qed.
Lemma PA_ambiguous : forall w r pos ns extras, ambiguous P w -> w <> "--"%string -> PA (w :: r) pos ns extras = Exit2.
Proof. intros w r pos ns extras A N. unfold PA. rewrite classify_word by exact N. now rewrite (proj2 (po_none P U w N) A). Qed.
Lemma PA_arg : forall w r a pos ns extras, plain P w -> (forall b, r <> "--"%string :: b) ->
  PA (w :: r) (a :: pos) ns extras = PA r pos (set_attr ns (a_dest a) (AStr w)) extras.
Proof.
  intros w r a pos ns extras H N. unfold PA. assert (ND := proj1 (plain_not P U w H)). rewrite classify_word by exact ND. rewrite (po_plain P U w H).
  destruct (classify P r) as [l|] eqn:E; [|reflexivity]. rewrite PL_arg by (eapply classify_starts; eauto). unfold late. destruct (string_dec w "--"); [contradiction|reflexivity].
Qed.
Lemma PA_extra : forall w r ns extras, plain P w -> PA (w :: r) [] ns extras = PA r [] ns (extras ++ [w]).
Proof.
  intros w r ns extras H. unfold PA. assert (ND := proj1 (plain_not P U w H)). rewrite classify_word by exact ND. rewrite (po_plain P U w H).
  destruct (classify P r) as [l|] eqn:E; [|reflexivity]. apply PL_extra.
Qed.
Lemma PA_join : forall w b a pos ns extras, plain P w ->
  PA (w :: "--"%string :: b) (a :: pos) ns extras = clean extras (outcome (fill pos (map late b) (set_attr ns (a_dest a) (AStr w)))).
Proof.
  intros w b a pos ns extras H. unfold PA. assert (ND := proj1 (plain_not P U w H)). rewrite classify_word by exact ND. rewrite (po_plain P U w H), classify_dashes.
  rewrite PL_join by exact ND. apply PL_tas.
Qed.
Lemma PA_new : forall w b a pos ns extras,
  PA ("--"%string :: w :: b) (a :: pos) ns extras = clean extras (outcome (fill pos (map late b) (set_attr ns (a_dest a) (AStr w)))).
Proof. intros. unfold PA. rewrite classify_dashes. change (tas (w :: b)) with ((w, @TA F) :: tas b). rewrite PL_new. apply PL_tas. Qed.
Lemma PA_dashes_end : forall pos ns extras, PA ["--"%string] pos ns extras = Exit2.
Proof. intros. apply PL_dashes_end. Qed.
Lemma PA_dashes_full : forall b ns extras, PA ("--"%string :: b) [] ns extras = Exit2.
Proof. intros. apply PL_dashes_full. Qed.
Lemma PA_unknown : forall w r pos ns extras, unknown P w -> PA (w :: r) pos ns extras = PA r pos ns (extras ++ [w]).
Proof.
  intros w r pos ns extras H. unfold PA. assert (ND : w <> "--"%string) by apply H. rewrite classify_word by exact ND. rewrite (po_unknown P U w H).
  destruct (classify P r); [|reflexivity]. rewrite PL_option. reflexivity.
Qed.
Lemma PA_option : forall w r o e a pos ns extras, reads P w o e -> option_of P o a ->
  PA (w :: r) pos ns extras = match classify P r with None => Exit2 | Some l => optional_step P (PL P) ((w, TO (mkOt (Some a) o (option_map (pair "="%string) e))) :: l) pos ns extras end.
Proof.
  intros w r o e a pos ns extras R A. unfold PA. assert (ND : w <> "--"%string) by apply R. rewrite classify_word by exact ND. rewrite (po_reads P U w o e a R A).
  destruct (classify P r); [|reflexivity]. apply PL_option.
Qed.
Lemma PA_sep : forall w o a v r pos ns extras, reads P w o None -> option_of P o a -> with_value (a_kind a) -> plain P v ->
  PA (w :: v :: r) pos ns extras = match convert (a_kind a) v with Some x => PA r pos (set_attr ns (a_dest a) x) extras | None => Exit2 end.
Proof.
  intros w o a v r pos ns extras R A K V. rewrite (PA_option w _ o None a) by assumption. assert (ND := proj1 (plain_not P U v V)). rewrite classify_word by exact ND. rewrite (po_plain P U v V). unfold PA.
  destruct (classify P r) as [l|]; [|destruct (convert _ _); reflexivity]. cbn [optional_step consume_optional t_action t_explicit option_map]. unfold consume_optional. cbn [t_action t_explicit option_map].
  rewrite (proj1 (with_value_takes _) K). cbn [app]. rewrite take_option_value by exact K. destruct (convert _ _); [|reflexivity]. now rewrite app_nil_r.
Qed.
Lemma PA_sep_bad : forall w o a r pos ns extras, reads P w o None -> option_of P o a -> with_value (a_kind a) -> (forall v q, r = v :: q -> ~ plain P v) ->
  PA (w :: r) pos ns extras = Exit2.
Proof.
  intros w o a r pos ns extras R A K V. rewrite (PA_option w _ o None a) by assumption.
  destruct (classify P r) as [l|] eqn:E; [|reflexivity]. cbn [optional_step]. unfold consume_optional. cbn [t_action t_explicit option_map].
  rewrite (proj1 (with_value_takes _) K). destruct l as [|(s & [| |t]) l]; try reflexivity. exfalso.
  destruct r as [|v q]; [discriminate|]. destruct (string_dec v "--") as [->|ND]; [rewrite classify_dashes in E; discriminate|].
  rewrite classify_word in E by exact ND. assert (S := parse_optional_shape P U v ND). destruct (parse_optional P v) as [c|]; [|discriminate]. destruct (classify P q); [|discriminate].
  injection E as <- -> _. inversion S. apply (V v q); auto.
Qed.
Lemma PA_equal : forall w o a v r pos ns extras, reads P w o (Some v) -> option_of P o a -> with_value (a_kind a) ->
  PA (w :: r) pos ns extras = match convert (a_kind a) v with Some x => PA r pos (set_attr ns (a_dest a) x) extras | None => Exit2 end.
Proof.
  intros w o a v r pos ns extras R A K. rewrite (PA_option w _ o (Some v) a) by assumption. unfold PA.
  destruct (classify P r) as [l|]; [|destruct (convert _ _); reflexivity]. cbn [optional_step]. unfold consume_optional. cbn [t_action t_explicit t_string option_map].
  assert (C : consume_explicit P a o "=" v [] = XStop [(a, [v])] []) by (destruct v; cbn; rewrite (proj1 (with_value_takes _) K); reflexivity).
  rewrite C. rewrite take_option_value by exact K. destruct (convert _ _); [|reflexivity]. now rewrite app_nil_r.
Qed.
Lemma PA_equal_bad : forall w o a v r pos ns extras, reads P w o (Some v) -> option_of P o a -> ~ with_value (a_kind a) -> PA (w :: r) pos ns extras = Exit2.
Proof.
  intros w o a v r pos ns extras R A K. rewrite (PA_option w _ o (Some v) a) by assumption.
  destruct (classify P r) as [l|]; [|reflexivity]. cbn [optional_step]. unfold consume_optional. cbn [t_action t_explicit t_string option_map].
  assert (C : consume_explicit P a o "=" v [] = XErr).
  { rewrite with_value_takes in K. destruct (takes_value (a_kind a)) eqn:T; [congruence|]. destruct v as [|d v]; cbn [consume_explicit]; rewrite T; [destruct o as [|c0 [|c1 o]]; reflexivity|].
    destruct o as [|c0 [|c1 o]]; try reflexivity. cbn [String.eqb negb orb]. destruct (Ascii.eqb c1 dash); reflexivity. }
  rewrite C. reflexivity.
Qed.
Lemma PA_flag : forall w o a r pos ns extras, reads P w o None -> option_of P o a -> a_kind a = KTrue ->
  PA (w :: r) pos ns extras = PA r pos (set_attr ns (a_dest a) (ABool true)) extras.
Proof.
  intros w o a r pos ns extras R A K. rewrite (PA_option w _ o None a) by assumption. unfold PA.
  destruct (classify P r) as [l|]; [|reflexivity]. cbn [optional_step]. unfold consume_optional. cbn [t_action t_explicit t_string option_map]. rewrite K. cbn [takes_value app].
  unfold Args.take_options, take_option. rewrite K. now rewrite app_nil_r.
Qed.
Lemma PA_help : forall w o a r pos ns extras, reads P w o None -> option_of P o a -> a_kind a = KHelp ->
  PA (w :: r) pos ns extras = match classify P r with None => Exit2 | Some _ => Exit0 end.
Proof.
  intros w o a r pos ns extras R A K. rewrite (PA_option w _ o None a) by assumption.
  destruct (classify P r) as [l|]; [|reflexivity]. cbn [optional_step]. unfold consume_optional. cbn [t_action t_explicit t_string option_map]. rewrite K. cbn [takes_value app].
  unfold Args.take_options, take_option. rewrite K. reflexivity.
Qed.
Lemma help_kind : forall a, option_of P "-h" a -> a_kind a = KHelp.
Proof. intros a A. destruct U as (_ & _ & _ & H & _). apply (H _ _ A). left. reflexivity. Qed.
Lemma explicit_h : forall a, option_of P "-h" a -> forall e acc, (forall c r, e = String c r -> c <> "="%char) -> e <> ""%string ->
  (more_h e /\ exists l, (exists ex, consume_explicit P a "-h" "" e acc = XStop (acc ++ (a, []) :: l) ex) \/ consume_explicit P a "-h" "" e acc = XOpen (acc ++ (a, []) :: l) a) \/
  (~ more_h e /\ consume_explicit P a "-h" "" e acc = XErr).
Proof.
  intros a A. assert (K := help_kind a A). induction e as [|c e IH]; intros acc NE NN; [congruence|]. clear NN. specialize (NE c e eq_refl).
  cbn [consume_explicit]. rewrite K. cbn [takes_value]. change (Ascii.eqb "h" dash) with false. cbn [String.eqb negb orb].
  destruct (Ascii.eqb_spec c dash) as [->|ND].
  { right. split; [|reflexivity]. unfold dash. intros H. inversion H; congruence. }
  assert (FO := find_option_spec P (String "-" (String c ""))). destruct (Ascii.eqb_spec c "h") as [->|NH].
  - rewrite (find_option_some P U "-h" a A). destruct e as [|d e].
    + left. split; [constructor; constructor|]. exists []. right. reflexivity.
    + destruct (Ascii.eqb_spec d "=") as [->|Nd].
      * right. split.
        -- intros H. inversion H as [|? H'|]; subst; [|congruence]. inversion H'; congruence.
        -- destruct e as [|x e]; cbn [consume_explicit]; rewrite K; cbn [takes_value]; [reflexivity|]. reflexivity.
      * destruct (IH (acc ++ [(a, [])])) as [(M & l & H) | (M & H)]; [intros x y E; congruence|discriminate| |].
        -- left. split; [constructor; exact M|]. exists ((a, []) :: l). rewrite <- app_assoc in H. exact H.
        -- right. split; [|exact H]. intros Q. inversion Q; subst; [auto|congruence].
  - destruct (find_option P (String "-" (String c ""))) as [b|].
    + exfalso. assert (IO : is_option_string P (String "-" (String c ""))) by (exists b; exact FO). apply (option_shape P U) in IO. destruct IO as [E | (x & n & E)]; [injection E as E; contradiction|discriminate].
    + left. split; [apply mh_other; assumption|]. exists []. left. eexists. reflexivity.
Qed.
Lemma PA_short : forall c e r pos ns extras, c <> "="%char ->
  (more_h (String c e) /\ PA (append "-h" (String c e) :: r) pos ns extras = match classify P r with None => Exit2 | Some _ => Exit0 end) \/
  (~ more_h (String c e) /\ PA (append "-h" (String c e) :: r) pos ns extras = Exit2).
Proof.
  intros c e r pos ns extras NC. assert (H : is_option_string P "-h") by apply U. destruct H as (a & A). assert (K := help_kind a A).
  unfold PA. rewrite classify_word by discriminate. rewrite (po_short P U a c e NC A).
  destruct (explicit_h a A (String c e) []) as [(M & l & C) | (M & C)]; [intros d q E; congruence|discriminate|left|right]; (split; [exact M|]); (destruct (classify P r) as [q|]; [|reflexivity]);
    rewrite PL_option; cbn [optional_step]; unfold consume_optional; cbn [t_action t_explicit t_string].
  - destruct C as [(ex & C) | C]; rewrite C; [|rewrite K; cbn [takes_value]]; cbn [app Args.take_options take_option]; unfold take_option; rewrite K; reflexivity.
  - rewrite C. reflexivity.
Qed.

(** *** lines, from left to right *)
Inductive line' : list string -> list item -> list value -> Prop :=
| l_nil : line' [] [] []
| l_sep : forall w o k v r l vs, reads P w o None -> kind_of P o k -> with_value k -> plain P v -> line' r l vs -> line' (w :: v :: r) (IVal o v :: l) vs
| l_eq : forall w o k v r l vs, reads P w o (Some v) -> kind_of P o k -> with_value k -> line' r l vs -> line' (w :: r) (IVal o v :: l) vs
| l_flag : forall w o r l vs, reads P w o None -> kind_of P o KTrue -> line' r l vs -> line' (w :: r) (IFlag o :: l) vs
| l_pos : forall w r l vs, plain P w -> (forall b, r <> "--"%string :: b) -> line' r l vs -> line' (w :: r) (IPos w :: l) (AStr w :: vs)
| l_join : forall w b, plain P w -> line' (w :: "--"%string :: b) [IPos w] (AStr w :: map late b)
| l_new : forall w b, line' ("--"%string :: w :: b) [] (AStr w :: map late b).
Lemma items_nil : forall a, items P a [] -> a = [].
Proof. intros a H. inversion H. reflexivity. Qed.
Lemma items_no_dashes : forall a l, items P a l -> forall b, a <> "--"%string :: b.
Proof.
  intros a l H b E. subst a. assert (R : forall o e, ~ reads P "--" o e) by (intros o e (N & _); congruence).
  inversion H; subst; try (eapply R; eassumption). match goal with H : plain P _ |- _ => apply (plain_not P U) in H; destruct H as (H & _); congruence end.
Qed.
Lemma ends_cons : forall i l, l <> [] -> (ends_with_pos (i :: l) <-> ends_with_pos l).
Proof.
  intros i l N. split.
  - intros ([|j l'] & v & H); cbn in H; injection H as -> H; [congruence|]. exists l', v. exact H.
  - intros (l' & v & ->). exists (i :: l'), v. reflexivity.
Qed.
Lemma ends_one : forall i : item, ends_with_pos [i] <-> exists v, i = IPos v.
Proof.
  intros i. split.
  - intros ([|j l'] & v & H); cbn in H; [injection H as ->; eauto|]. injection H as _ H. destruct l'; discriminate.
  - intros (v & ->). exists [], v. reflexivity.
Qed.
Lemma ends_nil : ~ ends_with_pos [].
Proof. intros ([|] & v & H); discriminate. Qed.
Lemma line_cons : forall ws i r l vs, line P r l vs -> (forall v, i = IPos v -> forall b, r <> "--"%string :: b) ->
  (forall a l, items P a l -> items P (ws ++ a) (i :: l)) -> line P (ws ++ r) (i :: l) (pos_of i ++ vs).
Proof.
  intros ws i r l vs H N X. destruct H as [argv l H|a l b H E|a l w b H E].
  - apply (line_all P (ws ++ argv) (i :: l)). auto.
  - assert (G : line P ((ws ++ a) ++ "--"%string :: b) (i :: l) (flat_map pos_of (i :: l) ++ map late b)).
    { apply line_join; [auto|]. apply ends_cons; [|exact E]. intros ->. exact (ends_nil E). }
    rewrite <- app_assoc in G. cbn [flat_map] in G. rewrite <- app_assoc in G. exact G.
  - assert (G : line P ((ws ++ a) ++ "--"%string :: w :: b) (i :: l) (flat_map pos_of (i :: l) ++ AStr w :: map late b)).
    { apply line_new; [auto|]. destruct l as [|j l].
      - apply items_nil in H. subst a. rewrite ends_one. intros (v & ->). exact (N v eq_refl (w :: b) eq_refl).
      - rewrite ends_cons by discriminate. exact E. }
    rewrite <- app_assoc in G. cbn [flat_map] in G. rewrite <- app_assoc in G. exact G.
Qed.
Lemma line'_line : forall argv l vs, line' argv l vs -> line P argv l vs.
Proof.
  intros argv l vs H. induction H.
  - apply (line_all P [] []). constructor.
  - apply (line_cons [w; v] (IVal o v) r l vs IHline'); [discriminate|]. intros. cbn. eapply it_sep; eauto.
  - apply (line_cons [w] (IVal o v) r l vs IHline'); [discriminate|]. intros. cbn. eapply it_eq; eauto.
  - apply (line_cons [w] (IFlag o) r l vs IHline'); [discriminate|]. intros. cbn. eapply it_flag; eauto.
  - apply (line_cons [w] (IPos w) r l vs IHline'); [intros; auto|]. intros. cbn. eapply it_pos; eauto.
  - apply (line_join P [w] [IPos w] b); [apply it_pos; [assumption|constructor]|]. apply ends_one. eauto.
  - apply (line_new P [] [] w b); [constructor|exact ends_nil].
Qed.
Lemma items_line' : forall a l, items P a l -> line' a l (flat_map pos_of l).
Proof.
  intros a l H. induction H; cbn [flat_map pos_of app].
  - constructor.
  - eapply l_sep; eauto.
  - eapply l_eq; eauto.
  - eapply l_flag; eauto.
  - apply l_pos; auto. eapply items_no_dashes; eauto.
Qed.
Lemma items_join' : forall a l, items P a l -> forall b, ends_with_pos l -> line' (a ++ "--"%string :: b) l (flat_map pos_of l ++ map late b).
Proof.
  intros a l H. induction H; intros b E; cbn [flat_map pos_of app].
  - destruct (ends_nil E).
  - eapply l_sep; eauto. apply IHitems. destruct l; [apply ends_one in E; destruct E; discriminate|]. rewrite ends_cons in E by discriminate; exact E.
  - eapply l_eq; eauto. apply IHitems. destruct l; [apply ends_one in E; destruct E; discriminate|]. rewrite ends_cons in E by discriminate; exact E.
  - eapply l_flag; eauto. apply IHitems. destruct l; [apply ends_one in E; destruct E; discriminate|]. rewrite ends_cons in E by discriminate; exact E.
  - destruct l as [|j l].
    + apply items_nil in H0. subst r. cbn. apply l_join. assumption.
    + apply l_pos; [assumption| |apply IHitems; rewrite ends_cons in E by discriminate; exact E].
      intros b' K. destruct r as [|x r]; [inversion H0|]. cbn in K. injection K as -> _. eapply items_no_dashes; eauto.
Qed.
Lemma items_new' : forall a l, items P a l -> forall w b, ~ ends_with_pos l -> line' (a ++ "--"%string :: w :: b) l (flat_map pos_of l ++ AStr w :: map late b).
Proof.
  intros a l H. induction H; intros w0 b E; cbn [flat_map pos_of app].
  - apply l_new.
  - eapply l_sep; eauto. apply IHitems. intros E'. apply E. apply ends_cons; [intros ->; exact (ends_nil E')|exact E'].
  - eapply l_eq; eauto. apply IHitems. intros E'. apply E. apply ends_cons; [intros ->; exact (ends_nil E')|exact E'].
  - eapply l_flag; eauto. apply IHitems. intros E'. apply E. apply ends_cons; [intros ->; exact (ends_nil E')|exact E'].
  - destruct l as [|j l].
    + exfalso. apply E. apply ends_one. eauto.
    + apply l_pos; [assumption| |apply IHitems; rewrite ends_cons in E; [exact E|discriminate]].
      intros b' K. destruct r as [|x r]; [inversion H0|]. cbn in K. injection K as -> _. eapply items_no_dashes; eauto.
Qed.
Lemma line_line' : forall argv l vs, line P argv l vs <-> line' argv l vs.
Proof.
  intros argv l vs. split; [|apply line'_line]. intros H. destruct H.
  - apply items_line'. assumption.
  - apply items_join'; assumption.
  - apply items_new'; assumption.
Qed.

(** the items, applied *)
Fixpoint exec (l : list item) (vals : list value) (pos : list action) (ns : namespace) : option namespace :=
  match l with
  | [] => fill pos vals ns
  | IPos _ :: l => match pos, vals with a :: pos, v :: vals => exec l vals pos (set_attr ns (a_dest a) v) | _, _ => None end
  | IVal o s :: l =>
      match find_option P o with
      | Some a => match convert (a_kind a) s with Some v => exec l vals pos (set_attr ns (a_dest a) v) | None => None end
      | None => None
      end
  | IFlag o :: l =>
      match find_option P o with
      | Some a => exec l vals pos (set_attr ns (a_dest a) (ABool true))
      | None => None
      end
  end.
Lemma PA_line' : forall argv l vs, line' argv l vs -> forall pos ns extras, PA argv pos ns extras = clean extras (outcome (exec l vs pos ns)).
Proof.
  intros argv l vs H. induction H; intros pos ns extras; cbn [exec].
  - rewrite PA_nil. destruct pos, extras; reflexivity.
  - destruct H0 as (a & A & <-). rewrite (PA_sep w o a) by assumption. rewrite (find_option_some P U o a A). destruct (convert _ _); [apply IHline'|destruct extras; reflexivity].
  - destruct H0 as (a & A & <-). rewrite (PA_equal w o a v) by assumption. rewrite (find_option_some P U o a A). destruct (convert _ _); [apply IHline'|destruct extras; reflexivity].
  - destruct H0 as (a & A & K). rewrite (PA_flag w o a) by assumption. rewrite (find_option_some P U o a A). apply IHline'.
  - destruct pos as [|a pos]; [|rewrite PA_arg by assumption; apply IHline']. rewrite PA_extra, IHline' by assumption. destruct extras; reflexivity.
  - destruct pos as [|a pos]; [|rewrite PA_join by assumption; reflexivity]. rewrite PA_extra, PA_dashes_full by assumption. destruct extras; reflexivity.
  - destruct pos as [|a pos]; [rewrite PA_dashes_full; destruct extras; reflexivity|]. apply PA_new.
Qed.
Lemma kind_value : forall o a, option_of P o a -> a_kind a <> KHelp -> with_value (a_kind a) \/ a_kind a = KTrue.
Proof. intros o a A N. unfold with_value. destruct (a_kind a); auto. congruence. Qed.
Lemma extras_never : forall n argv, length argv <= n -> forall pos ns extras ns', extras <> [] -> PA argv pos ns extras <> Parsed ns'.
Proof.
  induction n as [|n IH]; intros argv L pos ns extras ns' N.
  - destruct argv; [|cbn in L; lia]. rewrite PA_nil. destruct pos, extras; congruence.
  - destruct argv as [|w r]; [rewrite PA_nil; destruct pos, extras; congruence|]. cbn [List.length] in L.
    destruct (string_dec w "--") as [->|ND].
    { destruct pos as [|a pos]; [rewrite PA_dashes_full; discriminate|]. destruct r as [|w b]; [rewrite PA_dashes_end; discriminate|]. rewrite PA_new. destruct extras; [congruence|discriminate]. }
    destruct (word_cases w ND) as [H | [(o & e & a & R & A) | [(c & e & -> & NC) | [H | H]]]].
    + destruct pos as [|a pos].
      * rewrite PA_extra by exact H. apply IH; [lia|]. destruct extras; discriminate.
      * destruct r as [|w' b]; [rewrite PA_arg by (auto; discriminate); apply IH; [cbn; lia|exact N]|]. destruct (string_dec w' "--") as [->|ND'].
        -- rewrite PA_join by exact H. destruct extras; [congruence|discriminate].
        -- rewrite PA_arg by (auto; intros x E; congruence). apply IH; [cbn in *; lia|exact N].
    + destruct e as [v|].
      * destruct (takes_value (a_kind a)) eqn:T.
        -- rewrite (PA_equal w o a v) by (auto; apply with_value_takes; exact T). destruct (convert _ _); [apply IH; [lia|exact N]|discriminate].
        -- rewrite (PA_equal_bad w o a v) by (auto; rewrite with_value_takes; congruence). discriminate.
      * destruct (takes_value (a_kind a)) eqn:T.
        -- apply with_value_takes in T. destruct r as [|v r]; [rewrite (PA_sep_bad w o a) by (auto; discriminate); discriminate|].
           destruct (string_dec v "--") as [->|NV].
           { rewrite (PA_sep_bad w o a); [discriminate|auto|auto|auto|]. intros x q E. injection E as <- _. intros Q. apply (plain_not P U) in Q. tauto. }
           destruct (word_cases v NV) as [V | V].
           { rewrite (PA_sep w o a) by auto. destruct (convert _ _); [apply IH; [cbn in L; lia|exact N]|discriminate]. }
           rewrite (PA_sep_bad w o a); [discriminate|auto|auto|auto|]. intros x q E. injection E as <- _. intros Q. assert (Q' := Q). apply (plain_not P U) in Q. destruct Q as (_ & Q1 & Q2 & Q3).
           destruct V as [(o' & e' & a' & R' & _) | [(c & e' & -> & NC) | [V | V]]]; [eapply Q1; eauto|apply Q3; exists c, e'; auto| |auto].
           apply (po_plain P U) in Q'. rewrite (po_unknown P U v V) in Q'. discriminate.
        -- destruct (a_kind a) eqn:K; try discriminate.
           ++ rewrite (PA_flag w o a) by auto. apply IH; [lia|exact N].
           ++ rewrite (PA_help w o a) by auto. destruct (classify P r); discriminate.
    + destruct (PA_short c e r pos ns extras NC) as [(_ & ->) | (_ & ->)]; [destruct (classify P r)|]; discriminate.
    + rewrite PA_unknown by exact H. apply IH; [lia|]. destruct extras; discriminate.
    + rewrite PA_ambiguous by assumption. discriminate.
Qed.
Lemma not_plain : forall v, v <> "--"%string -> ~ plain P v -> (exists o e a, reads P v o e /\ option_of P o a) \/ (exists c e, v = append "-h" (String c e) /\ c <> "="%char) \/ unknown P v \/ ambiguous P v.
Proof. intros v N H. destruct (word_cases v N) as [K | K]; [contradiction|exact K]. Qed.
Lemma plain_dec : forall v, plain P v \/ ~ plain P v.
Proof.
  intros v. destruct (string_dec v "--") as [->|N]; [right; intros Q; apply (plain_not P U) in Q; tauto|].
  assert (S := parse_optional_shape P U v N). destruct (parse_optional P v) as [[| |t]|] eqn:E.
  - left. inversion S. assumption.
  - inversion S.
  - right. intros Q. apply (po_plain P U) in Q. congruence.
  - right. intros Q. apply (po_plain P U) in Q. congruence.
Qed.
Lemma parsed_line : forall n argv, length argv <= n -> forall pos ns extras ns', PA argv pos ns extras = Parsed ns' -> exists l vs, line' argv l vs.
Proof.
  induction n as [|n IH]; intros argv L pos ns extras ns' H.
  - destruct argv; [|cbn in L; lia]. exists [], []. constructor.
  - destruct argv as [|w r]; [exists [], []; constructor|]. cbn [List.length] in L.
    destruct (string_dec w "--") as [->|ND].
    { destruct r as [|w b]; [rewrite PA_dashes_end in H; discriminate|]. eexists. eexists. apply l_new. }
    destruct (word_cases w ND) as [W | [(o & e & a & R & A) | [(c & e & -> & NC) | [W | W]]]].
    + destruct pos as [|a pos].
      * rewrite PA_extra in H by exact W. exfalso. eapply (extras_never n r); [lia| |exact H]. destruct extras; discriminate.
      * destruct r as [|w' b]; [exists [IPos w], [AStr w]; apply l_pos; [exact W|discriminate|constructor]|]. destruct (string_dec w' "--") as [->|ND'].
        -- eexists. eexists. apply l_join. exact W.
        -- rewrite PA_arg in H by (auto; intros x E; congruence). destruct (IH (w' :: b) ltac:(lia) _ _ _ _ H) as (l & vs & Q). eexists. eexists. apply l_pos; [exact W|intros x E; congruence|exact Q].
    + destruct e as [v|].
      * destruct (takes_value (a_kind a)) eqn:T.
        -- apply with_value_takes in T. rewrite (PA_equal w o a v) in H by auto. destruct (convert _ _); [|discriminate]. destruct (IH r ltac:(lia) _ _ _ _ H) as (l & vs & Q).
           eexists. eexists. eapply l_eq; eauto. exists a. auto.
        -- rewrite (PA_equal_bad w o a v) in H by (auto; rewrite with_value_takes; congruence). discriminate.
      * destruct (takes_value (a_kind a)) eqn:T.
        -- apply with_value_takes in T. destruct r as [|v r]; [rewrite (PA_sep_bad w o a) in H by (auto; discriminate); discriminate|].
           destruct (plain_dec v) as [V | V].
           { rewrite (PA_sep w o a) in H by auto. destruct (convert _ _); [|discriminate]. destruct (IH r ltac:(cbn in L; lia) _ _ _ _ H) as (l & vs & Q). eexists. eexists. eapply l_sep; eauto. exists a. auto. }
           rewrite (PA_sep_bad w o a) in H; [discriminate|auto|auto|auto|]. intros x q E. injection E as <- _. exact V.
        -- destruct (a_kind a) eqn:K; try discriminate.
           ++ rewrite (PA_flag w o a) in H by auto. destruct (IH r ltac:(lia) _ _ _ _ H) as (l & vs & Q). eexists. eexists. eapply l_flag; eauto. exists a. auto.
           ++ rewrite (PA_help w o a) in H by auto. destruct (classify P r); discriminate.
    + destruct (PA_short c e r pos ns extras NC) as [(_ & E) | (_ & E)]; rewrite E in H; [destruct (classify P r)|]; discriminate.
    + rewrite PA_unknown in H by exact W. exfalso. eapply (extras_never n r); [lia| |exact H]. destruct extras; discriminate.
    + rewrite PA_ambiguous in H by assumption. discriminate.
Qed.

(** *** help *)
Lemma help_ne : forall w, help_word P w -> w <> "--"%string.
Proof. intros w [(o & R & _) | ((c & e & -> & _) & _)]; [apply R|discriminate]. Qed.
Lemma sloppy_ne : forall l, sloppy to_float to_int P l -> ~ In "--"%string l.
Proof.
  intros l H. induction H; intros X; [destruct X|..]; destruct X as [E | I]; subst; auto.
  - apply (proj1 H). reflexivity.
  - destruct I as [E | I]; [|auto]. subst v. apply (plain_not P U) in H2. tauto.
  - apply (proj1 H). reflexivity.
  - apply (proj1 H). reflexivity.
  - apply (plain_not P U) in H. tauto.
  - destruct H as (_ & _ & H & _). congruence.
Qed.
Lemma help_now : forall w r pos ns extras, help_word P w -> classify P r <> None -> PA (w :: r) pos ns extras = Exit0.
Proof.
  intros w r pos ns extras [(o & R & (a & A & K)) | ((c & e & -> & NC) & e' & E & M)] C.
  - rewrite (PA_help w o a) by assumption. destruct (classify P r); congruence.
  - apply append_inj in E. subst e'. destruct (PA_short c e r pos ns extras NC) as [(_ & ->) | (N & _)]; [destruct (classify P r); congruence|contradiction].
Qed.
Lemma value_with : forall k v x, value_as to_float to_int k v x -> with_value k.
Proof. intros k v x H. unfold with_value. destruct k; cbn in H; auto; destruct H. Qed.
Lemma help_later : forall l, sloppy to_float to_int P l -> forall w r pos ns extras, help_word P w -> classify P r <> None -> PA (l ++ w :: r) pos ns extras = Exit0.
Proof.
  intros l H. induction H; intros w0 r0 pos ns extras W C; cbn [app].
  - apply help_now; assumption.
  - destruct H0 as (a & A & <-). rewrite (PA_sep w o a) by (auto; eapply value_with; eauto). apply value_as_convert in H1. rewrite H1. auto.
  - destruct H0 as (a & A & <-). rewrite (PA_equal w o a v) by (auto; eapply value_with; eauto). apply value_as_convert in H1. rewrite H1. auto.
  - destruct H0 as (a & A & K). rewrite (PA_flag w o a) by auto. auto.
  - destruct pos as [|a pos]; [rewrite PA_extra by assumption; auto|]. rewrite PA_arg; [auto|assumption|].
    intros b E. destruct r as [|x r]; cbn in E; injection E as -> _; [apply help_ne in W; congruence|]. apply (sloppy_ne _ H0). left. reflexivity.
  - rewrite PA_unknown by assumption. auto.
Qed.
Lemma help_found : forall n argv, length argv <= n -> forall pos ns extras, PA argv pos ns extras = Exit0 ->
  exists l w r, argv = l ++ w :: r /\ sloppy to_float to_int P l /\ help_word P w.
Proof.
  assert (X : forall ws r, (exists l w q, r = l ++ w :: q /\ sloppy to_float to_int P l /\ help_word P w) -> (forall l, sloppy to_float to_int P l -> sloppy to_float to_int P (ws ++ l)) ->
    exists l w q, ws ++ r = l ++ w :: q /\ sloppy to_float to_int P l /\ help_word P w).
  { intros ws r (l & w & q & -> & S & H) K. exists (ws ++ l), w, q. split; [now rewrite app_assoc|]. auto. }
  induction n as [|n IH]; intros argv L pos ns extras H.
  - destruct argv; [|cbn in L; lia]. rewrite PA_nil in H. destruct pos, extras; discriminate.
  - destruct argv as [|w r]; [rewrite PA_nil in H; destruct pos, extras; discriminate|]. cbn [List.length] in L.
    destruct (string_dec w "--") as [->|ND].
    { destruct pos as [|a pos]; [rewrite PA_dashes_full in H; discriminate|]. destruct r as [|w b]; [rewrite PA_dashes_end in H; discriminate|]. rewrite PA_new in H. destruct extras; [|discriminate]. cbn in H. destruct (fill _ _ _); discriminate. }
    destruct (word_cases w ND) as [W | [(o & e & a & R & A) | [(c & e & -> & NC) | [W | W]]]].
    + assert (K : forall l, sloppy to_float to_int P l -> sloppy to_float to_int P ([w] ++ l)) by (intros l; apply sl_pos; exact W).
      destruct pos as [|a pos].
      * rewrite PA_extra in H by exact W. apply (X [w] r); [|exact K]. apply (IH r ltac:(lia) _ _ _ H).
      * destruct r as [|w' b]; [rewrite PA_arg in H by (auto; discriminate); rewrite PA_nil in H; destruct pos, extras; discriminate|]. destruct (string_dec w' "--") as [->|ND'].
        -- rewrite PA_join in H by exact W. destruct extras; [|discriminate]. cbn in H. destruct (fill _ _ _); discriminate.
        -- rewrite PA_arg in H by (auto; intros x E; congruence). apply (X [w] (w' :: b)); [|exact K]. apply (IH (w' :: b) ltac:(lia) _ _ _ H).
    + assert (KO : kind_of P o (a_kind a)) by (exists a; auto). destruct e as [v|].
      * destruct (takes_value (a_kind a)) eqn:T.
        -- apply with_value_takes in T. rewrite (PA_equal w o a v) in H by auto. destruct (convert _ _) eqn:E; [|discriminate]. apply value_as_convert in E.
           apply (X [w] r); [apply (IH r ltac:(lia) _ _ _ H)|]. intros l. eapply sl_eq; eauto.
        -- rewrite (PA_equal_bad w o a v) in H by (auto; rewrite with_value_takes; congruence). discriminate.
      * destruct (takes_value (a_kind a)) eqn:T.
        -- apply with_value_takes in T. destruct r as [|v r]; [rewrite (PA_sep_bad w o a) in H by (auto; discriminate); discriminate|].
           destruct (plain_dec v) as [V | V].
           { rewrite (PA_sep w o a) in H by auto. destruct (convert _ _) eqn:E; [|discriminate]. apply value_as_convert in E. apply (X [w; v] r); [apply (IH r ltac:(cbn in L; lia) _ _ _ H)|]. intros l. eapply sl_sep; eauto. }
           rewrite (PA_sep_bad w o a) in H; [discriminate|auto|auto|auto|]. intros x q E. injection E as <- _. exact V.
        -- destruct (a_kind a) eqn:K; try discriminate.
           ++ rewrite (PA_flag w o a) in H by auto. apply (X [w] r); [apply (IH r ltac:(lia) _ _ _ H)|]. intros l. eapply sl_flag; eauto.
           ++ exists [], w, r. split; [reflexivity|]. split; [constructor|]. left. exists o. auto.
    + destruct (PA_short c e r pos ns extras NC) as [(M & _) | (_ & E)]; [|rewrite E in H; discriminate].
      exists [], (append "-h" (String c e)), r. split; [reflexivity|]. split; [constructor|]. right. split; [exists c, e; auto|]. exists (String c e). auto.
    + rewrite PA_unknown in H by exact W. apply (X [w] r); [apply (IH r ltac:(lia) _ _ _ H)|]. intros l. apply sl_unknown. exact W.
    + rewrite PA_ambiguous in H by assumption. discriminate.
Qed.
Lemma head_exists : forall argv, exists a, head_words argv a.
Proof.
  induction argv as [|w r (a & N & H)]; [exists []; split; [intros []|left; reflexivity]|].
  destruct (string_dec w "--") as [->|ND]; [exists []; split; [intros []|right; exists r; reflexivity]|].
  exists (w :: a). split; [intros [E|I]; auto|]. destruct H as [-> | (b & ->)]; [left|right; exists b]; reflexivity.
Qed.
Lemma classify_none : forall a argv, head_words argv a -> (classify P argv = None <-> exists v, In v a /\ ambiguous P v).
Proof.
  induction a as [|w a IH]; intros argv (N & H).
  - split; [|intros (v & [] & _)]. destruct H as [-> | (b & ->)]; discriminate.
  - assert (ND : w <> "--"%string) by (intros ->; apply N; left; reflexivity).
    assert (exists r, argv = w :: r /\ head_words r a) as (r & -> & HR).
    { destruct H as [-> | (b & ->)]; [exists a|exists (a ++ "--"%string :: b)]; (split; [reflexivity|]); (split; [intros I; apply N; right; exact I|]); [left; reflexivity|right; exists b; reflexivity]. }
    rewrite classify_word by exact ND. assert (PO := po_none P U w ND). specialize (IH r HR). destruct (parse_optional P w) as [c|].
    + destruct (classify P r) as [l|].
      * split; [discriminate|]. intros (v & [-> | I] & A); [apply PO in A; discriminate|]. assert (X : Some l = None) by (apply IH; eauto). discriminate.
      * split; [intros _|reflexivity]. destruct (proj1 IH eq_refl) as (v & I & A). exists v. split; [right; exact I|exact A].
    + split; [intros _; exists w; split; [left; reflexivity|apply PO; reflexivity]|reflexivity].
Qed.
Lemma head_prefix : forall argv a l w r, head_words argv a -> argv = l ++ w :: r -> ~ In "--"%string l -> w <> "--"%string -> exists q, a = l ++ w :: q.
Proof.
  intros argv a l. revert argv a. induction l as [|x l IH]; intros argv a w r (N & H) E NL NW; cbn in *.
  - destruct a as [|y a]; [destruct H as [-> | (b & ->)]; cbn in E; congruence|]. exists a. destruct H as [-> | (b & ->)]; cbn in E; congruence.
  - destruct a as [|y a]; [destruct H as [-> | (b & ->)]; cbn in E; [discriminate|]; exfalso; apply NL; left; congruence|].
    assert (y = x) by (destruct H as [-> | (b & ->)]; cbn in E; congruence). subst y.
    destruct (IH (l ++ w :: r) a w r) as (q & ->); auto; [|exists q; reflexivity]. split; [intros J; apply N; right; exact J|]. destruct H as [-> | (b & ->)]; cbn in E; injection E as E; [left; auto|right; exists b; auto].
Qed.
Lemma help_iff : forall argv pos ns extras, PA argv pos ns extras = Exit0 <-> shows_help to_float to_int P argv.
Proof.
  intros argv pos ns extras. split.
  - intros H. assert (C : classify P argv <> None) by (intros C; unfold PA in H; rewrite C in H; discriminate).
    destruct (help_found (length argv) argv (le_n _) pos ns extras H) as (l & w & r & E & S & W). destruct (head_exists argv) as (a & HA).
    destruct (head_prefix argv a l w r HA E (sloppy_ne l S) (help_ne w W)) as (q & ->). exists (l ++ w :: q), l, w, q. split; [exact HA|]. split; [reflexivity|]. split; [|auto].
    intros v I A. apply C. apply (classify_none _ _ HA). eauto.
  - intros (a & l1 & w & l2 & HA & -> & NA & S & W). assert (exists r, argv = l1 ++ w :: r /\ head_words r l2) as (r & -> & HR).
    { destruct HA as (N & H). assert (NR : ~ In "--"%string l2) by (intros I; apply N; apply in_or_app; right; right; exact I).
      destruct H as [-> | (b & ->)]; [exists l2|exists (l2 ++ "--"%string :: b)].
      - split; [reflexivity|]. split; [exact NR|left; reflexivity].
      - split; [now rewrite <- app_assoc|]. split; [exact NR|right; exists b; reflexivity]. }
    apply help_later; auto. intros C. apply (classify_none l2 r HR) in C. destruct C as (v & I & A). apply (NA v); [|exact A]. apply in_or_app. right. right. exact I.
Qed.

(** *** the namespace *)
Definition keys (ns : namespace) : list string := map fst ns.
Lemma set_keys : forall ns d v, In d (keys ns) -> keys (set_attr ns d v) = keys ns.
Proof.
  induction ns as [|(k & u) ns IH]; intros d v H; [destruct H|]. cbn [set_attr]. destruct (String.eqb_spec k d) as [->|N]; [reflexivity|].
  cbn in *. f_equal. apply IH. destruct H; [contradiction|assumption].
Qed.
Lemma set_in : forall ns d v k u, NoDup (keys ns) -> In d (keys ns) -> (In (k, u) (set_attr ns d v) <-> (k = d /\ u = v) \/ (k <> d /\ In (k, u) ns)).
Proof.
  induction ns as [|(x & y) ns IH]; intros d v k u N H; [destruct H|]. cbn [set_attr]. cbn in N. inversion N as [|? ? N1 N2]; subst.
  assert (G : forall z, ~ In (x, z) ns) by (intros z I; apply N1; apply in_map_iff; exists (x, z); auto).
  destruct (String.eqb_spec x d) as [->|ND]; cbn [In].
  - split.
    + intros [E | I]; [injection E as <- <-; auto|]. right. split; [|auto]. intros ->. exact (G _ I).
    + intros [(-> & ->) | (K & [E | I])]; [auto| |auto]. injection E as <- <-. congruence.
  - assert (H' : In d (keys ns)) by (cbn in H; destruct H; [contradiction|assumption]). rewrite (IH d v k u N2 H'). split.
    + intros [E | [(-> & ->) | (K & I)]]; [injection E as <- <-; auto|auto|auto].
    + intros [(-> & ->) | (K & [E | I])]; auto.
Qed.
Lemma in_fun : forall (ns : namespace) k u v, NoDup (keys ns) -> In (k, u) ns -> In (k, v) ns -> u = v.
Proof.
  induction ns as [|(x & y) ns IH]; intros k u v N A B; [destruct A|]. cbn in N. inversion N as [|? ? N1 N2]; subst.
  assert (G : forall z, ~ In (x, z) ns) by (intros z I; apply N1; apply in_map_iff; exists (x, z); auto).
  destruct A as [A | A], B as [B | B]; [congruence| | |eapply IH; eauto]; exfalso.
  - injection A as <- <-. exact (G _ B).
  - injection B as <- <-. exact (G _ A).
Qed.
Lemma ns_ext : forall ns ns' : namespace, keys ns = keys ns' -> NoDup (keys ns) -> (forall k v v', In (k, v) ns -> In (k, v') ns' -> v = v') -> ns = ns'.
Proof.
  induction ns as [|(k & v) ns IH]; intros [|(k' & v') ns'] E N H; try discriminate; [reflexivity|]. cbn in E. injection E as <- E. cbn in N. inversion N; subst.
  f_equal.
  - f_equal. apply (H k); left; reflexivity.
  - apply IH; auto. intros x y y' I I'. apply (H x); right; assumption.
Qed.
Lemma dest_inj : forall a b, In a P -> In b P -> a_dest a = a_dest b -> a = b.
Proof.
  assert (N : NoDup (map a_dest P)) by apply U. clear U. induction P as [|c l IH]; intros a b A B E; [destruct A|]. cbn in N. inversion N as [|? ? N1 N2]; subst.
  destruct A as [-> | A], B as [-> | B]; auto.
  - exfalso. apply N1. rewrite E. apply in_map. exact B.
  - exfalso. apply N1. rewrite <- E. apply in_map. exact A.
Qed.
Lemma positionals_in : forall a, In a (positionals P) <-> In a P /\ a_strings a = [].
Proof. intros a. unfold positionals. rewrite filter_In. destruct (a_strings a); split; intros (H & K); split; auto; discriminate. Qed.
Lemma option_strings_ne : forall o a, option_of P o a -> In a P /\ a_strings a <> [].
Proof. intros o a (H & K). split; [exact H|]. intros E. rewrite E in K. destruct K. Qed.
(** items of lines *)
Definition well (i : item) : Prop :=
  match i with
  | IVal o _ => exists a, option_of P o a /\ with_value (a_kind a)
  | IFlag o => exists a, option_of P o a /\ a_kind a = KTrue
  | IPos _ => True
  end.
Lemma line_well : forall argv l vs, line' argv l vs -> Forall well l /\ length (flat_map (@pos_of F) l) <= length vs.
Proof.
  intros argv l vs H. induction H; try (destruct IHline' as (W & L)); split; cbn; try lia; auto; constructor; auto.
  - destruct H0 as (a & A & <-). exists a. auto.
  - destruct H0 as (a & A & <-). exists a. auto.
  - exact I.
  - exact I.
Qed.
Definition good (ns : namespace) : Prop := NoDup (keys ns) /\ forall a, In a P -> a_kind a <> KHelp -> In (a_dest a) (keys ns).
Lemma set_good : forall ns a v, good ns -> In a P -> a_kind a <> KHelp -> good (set_attr ns (a_dest a) v) /\ keys (set_attr ns (a_dest a) v) = keys ns.
Proof. intros ns a v (N & G) A K. assert (E := set_keys ns (a_dest a) v (G a A K)). split; [|exact E]. split; rewrite E; auto. Qed.
Lemma pos_kind : forall a, In a (positionals P) -> In a P /\ a_kind a <> KHelp.
Proof. intros a H. apply positionals_in in H. destruct H as (H & E). split; [exact H|]. destruct U as (_ & _ & K & _). rewrite (K a H E). discriminate. Qed.
Definition after (l : list item) (ns : namespace) (a : action) (v : value) : Prop :=
  (exists l1 i l2, l = l1 ++ i :: l2 /\ sets to_float to_int a i v /\ forall j, In j l2 -> ~ about a j) \/
  (In (a_dest a, v) ns /\ forall j, In j l -> ~ about a j).
Definition result (l : list item) (vals : list value) (pos : list action) (ns ns' : namespace) : Prop :=
  typed to_float to_int P l /\ length pos = length vals /\ keys ns' = keys ns /\
  (forall i a v, nth_error pos i = Some a -> nth_error vals i = Some v -> In (a_dest a, v) ns') /\
  (forall a v, In a P -> a_strings a <> [] -> In (a_dest a, v) ns' -> after l ns a v) /\
  (forall a v, In a (positionals P) -> ~ In (a_dest a) (map a_dest pos) -> In (a_dest a, v) ns -> In (a_dest a, v) ns').
Lemma after_skip : forall i l ns ns1 a v, (forall u, In (a_dest a, u) ns1 -> In (a_dest a, u) ns) -> ~ about a i -> after l ns1 a v -> after (i :: l) ns a v.
Proof.
  intros i l ns ns1 a v K N [(l1 & j & l2 & -> & S & Z) | (H & Z)].
  - left. exists (i :: l1), j, l2. split; [reflexivity|]. auto.
  - right. split; [auto|]. intros j [<- | I]; auto.
Qed.
Lemma after_set : forall i l ns1 a u v, NoDup (keys ns1) -> In (a_dest a, u) ns1 -> sets to_float to_int a i u -> after l ns1 a v -> after (i :: l) ns1 a v.
Proof.
  intros i l ns1 a u v N I S [(l1 & j & l2 & -> & S' & Z) | (H & Z)].
  - left. exists (i :: l1), j, l2. split; [reflexivity|]. auto.
  - left. exists [], i, l. split; [reflexivity|]. rewrite <- (in_fun ns1 _ _ _ N I H). auto.
Qed.
Lemma after_ns : forall l ns ns1 a v i, about a i -> after (i :: l) ns1 a v -> after (i :: l) ns a v.
Proof. intros l ns ns1 a v i A [H | (_ & H)]; [left; exact H|]. exfalso. exact (H i (or_introl eq_refl) A). Qed.
Lemma fill_result : forall pos vals ns ns', good ns -> incl pos (positionals P) -> NoDup (map a_dest pos) -> fill pos vals ns = Some ns' -> result [] vals pos ns ns'.
Proof.
  induction pos as [|a pos IH]; intros [|v vals] ns ns' G I N H; try discriminate.
  - injection H as <-. split; [intros o s []|]. split; [reflexivity|]. split; [reflexivity|]. split; [intros [|i] a v E; discriminate|]. split; [|auto].
    intros a v A S J. right. split; [exact J|]. intros j [].
  - cbn [fill] in H. cbn in N. inversion N as [|? ? N1 N2]; subst. assert (IA : In a (positionals P)) by (apply I; left; reflexivity). destruct (pos_kind a IA) as (AP & AK).
    destruct (set_good ns a v G AP AK) as (G' & EK). assert (SI : forall k u, In (k, u) (set_attr ns (a_dest a) v) <-> _) by (intros k u; apply (set_in ns (a_dest a) v k u (proj1 G)); apply (proj2 G); assumption).
    destruct (IH vals _ ns' G' (fun x J => I x (or_intror J)) N2 H) as (T & L & K & R & O & Q).
    split; [exact T|]. split; [cbn; lia|]. split; [congruence|]. split; [|split].
    + intros [|i] b u E1 E2; cbn in E1, E2; [|eapply R; eauto]. injection E1 as <-. injection E2 as <-. apply Q; [exact IA|exact N1|]. apply SI. auto.
    + intros b u B S J. destruct (O b u B S J) as [([|x l1] & i & l2 & E & _) | (J' & _)]; try discriminate. right. split; [|intros j []]. apply SI in J'. destruct J' as [(E & _) | (_ & J')]; [|exact J'].
      exfalso. apply S. assert (b = a) by (apply dest_inj; auto). subst b. apply positionals_in in IA. apply IA.
    + intros b u B NB J. cbn in NB. apply Q; [exact B|tauto|]. apply SI. right. split; [intros E; apply NB; left; auto|exact J].
Qed.
Lemma option_step_result : forall i a v l vals pos ns ns', good ns -> In a P -> a_strings a <> [] -> a_kind a <> KHelp ->
  sets to_float to_int a i v -> (forall b, In b P -> about b i -> b = a) ->
  (typed to_float to_int P l -> typed to_float to_int P (i :: l)) ->
  result l vals pos (set_attr ns (a_dest a) v) ns' -> result (i :: l) vals pos ns ns'.
Proof.
  intros i a v l vals pos ns ns' G AP AS AK S UQ TY (T & L & K & R & O & Q).
  destruct (set_good ns a v G AP AK) as (G' & EK). assert (SI : forall k u, In (k, u) (set_attr ns (a_dest a) v) <-> _) by (intros k u; apply (set_in ns (a_dest a) v k u (proj1 G)); apply (proj2 G); assumption).
  split; [auto|]. split; [exact L|]. split; [congruence|]. split; [exact R|]. split.
  - intros b u B BS J. specialize (O b u B BS J). destruct (string_dec (a_dest b) (a_dest a)) as [E|NE].
    + assert (b = a) by (apply dest_inj; auto). subst b. assert (AB : about a i) by (destruct i; cbn in *; tauto).
      apply (after_ns _ ns (set_attr ns (a_dest a) v)); [exact AB|]. apply (after_set i l _ a v u); auto; [apply G'|]. apply SI. auto.
    + apply (after_skip i l ns (set_attr ns (a_dest a) v)); auto.
      * intros w W. apply SI in W. destruct W as [(E & _) | (_ & W)]; [contradiction|exact W].
      * intros AB. apply NE. rewrite (UQ b B AB). reflexivity.
  - intros b u B NB J. apply Q; auto. apply SI. right. split; [|exact J]. intros E. apply positionals_in in B. assert (b = a) by (apply dest_inj; auto; apply B). subst b. apply AS. apply B.
Qed.
Lemma typed_cons : forall i l, (forall o s, i = IVal o s -> exists k v, kind_of P o k /\ value_as to_float to_int k s v) -> typed to_float to_int P l -> typed to_float to_int P (i :: l).
Proof. intros i l H T o s [E | I]; auto. Qed.
Lemma option_unique_in : forall o a b, option_of P o a -> In b P -> In o (a_strings b) -> b = a.
Proof. intros o a b A B S. apply (option_unique P U o); [split; assumption|exact A]. Qed.
Lemma exec_result : forall l vals pos ns ns', Forall well l -> good ns -> incl pos (positionals P) -> NoDup (map a_dest pos) -> exec l vals pos ns = Some ns' -> result l vals pos ns ns'.
Proof.
  induction l as [|i l IH]; intros vals pos ns ns' W G I N H; [apply fill_result; assumption|]. inversion W as [|? ? Wi Wl]; subst. destruct i as [o s|o|s]; cbn [exec] in H.
  - destruct Wi as (a & A & K). rewrite (find_option_some P U o a A) in H. destruct (convert (a_kind a) s) as [v|] eqn:E; [|discriminate]. apply value_as_convert in E. assert (A' := option_strings_ne o a A).
    assert (AK : a_kind a <> KHelp) by (intros X; rewrite X in K; destruct K as [K | [K | K]]; discriminate).
    apply (option_step_result (IVal o s) a v); auto; try tauto.
    + split; [apply A|exact E].
    + intros b B S. cbn in S. eapply option_unique_in; eauto.
    + apply typed_cons. intros o' s' X. injection X as <- <-. exists (a_kind a), v. split; [exists a; auto|exact E].
    + destruct (set_good ns a v G (proj1 A') AK) as (G' & _). apply IH; auto.
  - destruct Wi as (a & A & K). rewrite (find_option_some P U o a A) in H. assert (A' := option_strings_ne o a A). assert (AK : a_kind a <> KHelp) by congruence.
    apply (option_step_result (IFlag o) a (ABool true)); auto; try tauto.
    + split; [apply A|reflexivity].
    + intros b B S. cbn in S. eapply option_unique_in; eauto.
    + apply typed_cons. discriminate.
    + destruct (set_good ns a (ABool true) G (proj1 A') AK) as (G' & _). apply IH; auto.
  - destruct pos as [|a pos]; [discriminate|]. destruct vals as [|v vals]; [discriminate|]. cbn in N. inversion N as [|? ? N1 N2]; subst.
    assert (IA : In a (positionals P)) by (apply I; left; reflexivity). destruct (pos_kind a IA) as (AP & AK).
    destruct (set_good ns a v G AP AK) as (G' & EK). assert (SI : forall k u, In (k, u) (set_attr ns (a_dest a) v) <-> _) by (intros k u; apply (set_in ns (a_dest a) v k u (proj1 G)); apply (proj2 G); assumption).
    destruct (IH vals pos _ ns' Wl G' (fun x J => I x (or_intror J)) N2 H) as (T & L & K & R & O & Q).
    split; [apply typed_cons; [discriminate|exact T]|]. split; [cbn; lia|]. split; [congruence|]. split; [|split].
    + intros [|i] b u E1 E2; cbn in E1, E2; [|eapply R; eauto]. injection E1 as <-. injection E2 as <-. apply Q; [exact IA|exact N1|]. apply SI. auto.
    + intros b u B S J. apply (after_skip (IPos s) l ns (set_attr ns (a_dest a) v)); [|exact (fun x => x)|auto].
      intros w X. apply SI in X. destruct X as [(E & _) | (_ & X)]; [|exact X]. exfalso. apply S. assert (b = a) by (apply dest_inj; auto). subst b. apply positionals_in in IA. apply IA.
    + intros b u B NB J. cbn in NB. apply Q; [exact B|tauto|]. apply SI. right. split; [intros E; apply NB; left; auto|exact J].
Qed.
Lemma fill_some : forall pos vals ns, length pos = length vals -> exists ns', fill pos vals ns = Some ns'.
Proof. induction pos as [|a pos IH]; intros [|v vals] ns L; try discriminate; [exists ns; reflexivity|]. cbn. apply IH. cbn in L. lia. Qed.
Lemma exec_some : forall l vals pos ns, Forall well l -> typed to_float to_int P l -> length pos = length vals -> length (flat_map (@pos_of F) l) <= length vals -> exists ns', exec l vals pos ns = Some ns'.
Proof.
  induction l as [|i l IH]; intros vals pos ns W T L C; [apply fill_some; exact L|]. inversion W as [|? ? Wi Wl]; subst.
  assert (Tl : typed to_float to_int P l) by (intros o s J; apply (T o s); right; exact J). destruct i as [o s|o|s]; cbn [exec].
  - destruct Wi as (a & A & _). rewrite (find_option_some P U o a A). destruct (T o s (or_introl eq_refl)) as (k & v & (b & B & <-) & V).
    rewrite (option_unique P U o b a B A) in V. apply value_as_convert in V. rewrite V. apply IH; auto.
  - destruct Wi as (a & A & _). rewrite (find_option_some P U o a A). apply IH; auto.
  - cbn in C. destruct vals as [|v vals]; [cbn in C; lia|]. destruct pos as [|a pos]; [discriminate|]. apply IH; auto; cbn in *; lia.
Qed.
Lemma the_positionals_iff : forall ps, the_positionals P ps <-> ps = positionals P.
Proof.
  unfold the_positionals. clear U. intros ps. split.
  - intros (sel & -> & L & H). revert sel L H. induction P as [|a l IH]; intros [|b sel] L H; try discriminate; [reflexivity|]. cbn in *. inversion H as [|? ? Ha Hl]; subst. cbn in Ha.
    destruct b; destruct (a_strings a) eqn:E; cbn.
    + f_equal. apply IH; auto.
    + exfalso. destruct Ha as (Ha & _). discriminate (Ha eq_refl).
    + exfalso. destruct Ha as (_ & Ha). discriminate (Ha eq_refl).
    + apply IH; auto.
  - intros ->. exists (map (fun a => match a_strings a with [] => true | _ => false end) P). split; [|split; [apply map_length|]].
    + unfold positionals. induction P as [|a l IH]; [reflexivity|]. cbn. destruct (a_strings a); cbn; now rewrite IH.
    + induction P as [|a l IH]; [constructor|]. constructor; [|exact IH]. cbn. destruct (a_strings a); split; auto; discriminate.
Qed.
Lemma last_unique : forall (l1 l1' : list item) i j l2 l2' (a : action), l1 ++ i :: l2 = l1' ++ j :: l2' -> about a i -> about a j ->
  (forall x, In x l2 -> ~ about a x) -> (forall x, In x l2' -> ~ about a x) -> i = j.
Proof.
  induction l1 as [|y l1 IH]; intros [|y' l1'] i j l2 l2' a E A B N N'; cbn in E; injection E as E1 E2.
  - exact E1.
  - exfalso. apply (N j); [|exact B]. rewrite E2. apply in_or_app. right. left. reflexivity.
  - exfalso. apply (N' i); [|exact A]. rewrite <- E2. apply in_or_app. right. left. reflexivity.
  - exact (IH l1' i j l2 l2' a E2 A B N N').
Qed.
Lemma sets_about : forall (a : action) i v, sets to_float to_int a i v -> about a i.
Proof. intros a [o s|o|s] v H; cbn in *; tauto. Qed.
Lemma sets_fun : forall (a : action) i v v', sets to_float to_int a i v -> sets to_float to_int a i v' -> v = v'.
Proof.
  intros a [o s|o|s] v v' H H'; cbn in *; [|destruct H, H'; congruence|tauto]. destruct H as (_ & H), H' as (_ & H'). apply value_as_convert in H, H'. congruence.
Qed.
Definition dests : list string := flat_map (fun a : action => match a_kind a with KHelp => [] | _ => [a_dest a] end) P.
Lemma dests_in : forall d, In d dests -> exists a, In a P /\ a_dest a = d.
Proof. intros d H. unfold dests in H. apply in_flat_map in H. destruct H as (a & A & H). exists a. split; [exact A|]. destruct (a_kind a); cbn in H; tauto. Qed.
Lemma dests_has : forall a, In a P -> a_kind a <> KHelp -> In (a_dest a) dests.
Proof. intros a A K. unfold dests. apply in_flat_map. exists a. split; [exact A|]. destruct (a_kind a); cbn; auto. Qed.
Lemma dests_nodup : NoDup dests.
Proof.
  assert (N : NoDup (map a_dest P)) by apply U. unfold dests. clear U. induction P as [|a l IH]; [constructor|]. cbn in *. inversion N as [|? ? N1 N2]; subst.
  assert (X : ~ In (a_dest a) (flat_map (fun a : action => match a_kind a with KHelp => [] | _ => [a_dest a] end) l)).
  { intros H. apply N1. apply in_flat_map in H. destruct H as (b & B & H). apply in_map_iff. exists b. split; [|exact B]. destruct (a_kind b); cbn in H; tauto. }
  destruct (a_kind a); cbn; auto; constructor; auto.
Qed.
Lemma means_unique : forall l vals ns ns', means to_float to_int P l vals ns -> means to_float to_int P l vals ns' -> ns = ns'.
Proof.
  intros l vals ns ns' (_ & (ps & HP & LP & RP) & K & O) (_ & (ps' & HP' & LP' & RP') & K' & O'). apply the_positionals_iff in HP, HP'. subst ps ps'.
  fold dests in K, K'. fold (keys ns) in K. fold (keys ns') in K'. assert (N : NoDup (keys ns)) by (rewrite K; apply dests_nodup). assert (N' : NoDup (keys ns')) by (rewrite K'; apply dests_nodup).
  apply ns_ext; [congruence|exact N|]. intros k v v' I I'.
  assert (D : In k dests) by (rewrite <- K; apply in_map_iff; exists (k, v); auto). destruct (dests_in k D) as (a & A & <-).
  destruct (a_strings a) as [|o os] eqn:E.
  - assert (PA' : In a (positionals P)) by (apply positionals_in; auto). apply In_nth_error in PA'. destruct PA' as (i & Ei).
    destruct (nth_error vals i) as [u|] eqn:Ev; [|exfalso; apply nth_error_None in Ev; assert (i < length (positionals P)) by (apply nth_error_Some; congruence); lia].
    rewrite (in_fun ns _ _ _ N I (RP i a u Ei Ev)). symmetry. apply (in_fun ns' _ _ _ N' I' (RP' i a u Ei Ev)).
  - assert (S : a_strings a <> []) by congruence. specialize (O a v A S I). specialize (O' a v' A S I').
    destruct O as [(l1 & i & l2 & -> & Si & Z) | (-> & Z)], O' as [(l1' & i' & l2' & E' & Si' & Z') | (-> & Z')].
    + assert (i = i') by (eapply (last_unique l1 l1' i i' l2 l2' a); eauto using sets_about). subst i'. eapply sets_fun; eauto.
    + exfalso. apply (Z' i); [apply in_or_app; right; left; reflexivity|]. eapply sets_about; eauto.
    + exfalso. apply (Z i'); [rewrite E'; apply in_or_app; right; left; reflexivity|]. eapply sets_about; eauto.
    + reflexivity.
Qed.
Lemma defaults_keys : keys (defaults P) = dests.
Proof. unfold keys, defaults, dests. clear. induction P as [|a l IH]; [reflexivity|]. cbn. rewrite map_app, IH. destruct (a_kind a); reflexivity. Qed.
Lemma defaults_in : forall a v, In a P -> In (a_dest a, v) (defaults P) -> v = a_default a.
Proof.
  intros a v A H. unfold defaults in H. apply in_flat_map in H. destruct H as (b & B & H). assert (E : (a_dest b, a_default b) = (a_dest a, v)) by (destruct (a_kind b); cbn in H; tauto).
  injection E as E <-. rewrite (dest_inj b a B A E). reflexivity.
Qed.
Lemma result_means : forall l vals ns, result l vals (positionals P) (defaults P) ns -> means to_float to_int P l vals ns.
Proof.
  intros l vals ns (T & L & K & R & O & _). split; [exact T|]. split; [|split].
  - exists (positionals P). split; [now apply the_positionals_iff|]. auto.
  - fold (keys ns). rewrite K, defaults_keys. reflexivity.
  - intros a v A S H. destruct (O a v A S H) as [X | (X & Z)]; [left; exact X|right]. split; [|exact Z]. apply defaults_in; assumption.
Qed.
Lemma accepted : forall argv ns, parse_args to_float to_int P argv = Parsed ns <-> exists l vals, line P argv l vals /\ means to_float to_int P l vals ns.
Proof.
  intros argv ns. rewrite parse_args_PA.
  assert (G : good (defaults P)) by (split; rewrite defaults_keys; [exact dests_nodup|exact dests_has]).
  assert (ND : NoDup (map a_dest (positionals P))).
  { assert (N : NoDup (map a_dest P)) by apply U. unfold positionals. clear - N. induction P as [|a l IH]; [constructor|]. cbn in *. inversion N as [|? ? N1 N2]; subst. destruct (a_strings a); [|auto].
    cbn. constructor; [|auto]. intros H. apply N1. apply in_map_iff in H. destruct H as (b & E & H). apply filter_In in H. apply in_map_iff. exists b. tauto. }
  split.
  - intros H. destruct (parsed_line (length argv) argv (le_n _) _ _ _ _ H) as (l & vals & LI). rewrite (PA_line' _ _ _ LI) in H. cbn in H.
    destruct (exec l vals (positionals P) (defaults P)) as [n|] eqn:E; [|discriminate]. injection H as <-. exists l, vals. split; [apply line_line'; exact LI|].
    apply result_means. apply exec_result; auto; [apply (line_well _ _ _ LI)|intros x J; exact J].
  - intros (l & vals & LI & M). apply line_line' in LI. rewrite (PA_line' _ _ _ LI). destruct (line_well _ _ _ LI) as (W & C).
    destruct (exec_some l vals (positionals P) (defaults P)) as (n & E); auto; [apply M| |].
    + destruct M as (_ & (ps & HP & LP & _) & _). apply the_positionals_iff in HP. subst ps. exact LP.
    + rewrite E. cbn. f_equal. apply (means_unique l vals); [|exact M]. apply result_means. apply exec_result; auto. intros x J; exact J.
Qed.
Lemma helped : forall argv, parse_args to_float to_int P argv = Exit0 <-> shows_help to_float to_int P argv.
Proof. intros argv. rewrite parse_args_PA. apply help_iff. Qed.
Lemma total : forall argv, parse_args to_float to_int P argv <> Fuel.
Proof. intros argv. rewrite parse_args_PA. unfold PA. destruct (classify P argv) as [l|]; [|discriminate]. apply (PL_total P (length l)). lia. Qed.
End Loop.

Section Derived.
Context {F : Type}.
Notation parser := (@parser F).
Notation action := (@action F).
Notation value := (@value F).
Variables (to_float : string -> option F) (to_int : string -> option Z).
Variable P : parser.
Hypothesis U : usual P.
Notation means := (means to_float to_int P).

Lemma get_in : forall (ns : list (string * value)) d v, NoDup (map fst ns) -> (get_attr ns d = Some v <-> In (d, v) ns).
Proof.
  intros ns d v. unfold get_attr. induction ns as [|(k & u) ns IH]; intros N; cbn; [split; [discriminate|tauto]|]. cbn in N. inversion N as [|? ? N1 N2]; subst.
  destruct (String.eqb_spec k d) as [->|ND]; cbn.
  - split; [intros H; injection H as ->; auto|]. intros [E | I]; [congruence|]. exfalso. apply N1. apply in_map_iff. exists (d, v). auto.
  - rewrite IH by exact N2. split; [auto|]. intros [E | I]; [congruence|exact I].
Qed.
Lemma means_nodup : forall l vals ns, means l vals ns -> NoDup (map fst ns).
Proof. intros l vals ns (_ & _ & K & _). rewrite K. apply (dests_nodup P U). Qed.
Lemma means_has : forall l vals ns a, means l vals ns -> In a P -> a_kind a <> KHelp -> exists v, In (a_dest a, v) ns.
Proof.
  intros l vals ns a (_ & _ & K & _) A N. assert (D := dests_has P a A N). unfold dests in D. rewrite <- K in D. apply in_map_iff in D. destruct D as ((k & v) & E & I). cbn in E. subst k. eauto.
Qed.
Lemma line_items : forall argv l vals, line P argv l vals -> Forall (well P) l.
Proof. intros argv l vals H. apply (line_line' P U) in H. apply (line_well P _ _ _ H). Qed.
Lemma get_option : forall argv l vals ns o a s, line P argv l vals -> means l vals ns -> option_of P o a -> a_strings a = [o] -> with_value (a_kind a) -> last_of l o s ->
  match s with Some x => exists v, value_as to_float to_int (a_kind a) x v /\ get_attr ns (a_dest a) = Some v | None => get_attr ns (a_dest a) = Some (a_default a) end.
Proof.
  intros argv l vals ns o a s LI M A E K S. assert (N := means_nodup _ _ _ M). assert (W := line_items _ _ _ LI). rewrite Forall_forall in W.
  assert (AK : a_kind a <> KHelp) by (intros X; rewrite X in K; destruct K as [K | [K | K]]; discriminate).
  destruct (means_has _ _ _ a M (proj1 A) AK) as (v & I).
  assert (AB : forall j, In j l -> about a j -> exists u, j = IVal o u).
  { intros [o' u|o'|u] J B; cbn in B; [rewrite E in B; destruct B as [-> | []]; eauto| |destruct B]. rewrite E in B. destruct B as [-> | []].
    destruct (W _ J) as (b & B & KB). exfalso. rewrite (option_unique P U o' b a B A) in KB. rewrite KB in K. destruct K as [K | [K | K]]; discriminate. }
  destruct M as (_ & _ & _ & O). assert (AS : a_strings a <> []) by (rewrite E; discriminate). specialize (O a v (proj1 A) AS I).
  destruct s as [x|]; cbn in S.
  - exists v. split; [|apply get_in; assumption]. destruct S as (m1 & m2 & EL & Z).
    assert (SA : about a (IVal o x)) by (cbn; rewrite E; left; reflexivity).
    destruct O as [(l1 & i & l2 & EL' & Si & Z') | (_ & Z')]; [|exfalso; apply (Z' (IVal o x)); [rewrite EL; apply in_or_app; right; left; reflexivity|exact SA]].
    assert (i = IVal o x).
    { apply (last_unique l1 m1 i (IVal o x) l2 m2 a); [congruence|eapply sets_about; eauto|exact SA|exact Z'|]. intros j J B.
      destruct (AB j) as (u & ->); [rewrite EL; apply in_or_app; right; right; exact J|exact B|]. exact (Z u J). }
    subst i. cbn in Si. apply Si.
  - apply get_in; [exact N|]. destruct O as [(l1 & i & l2 & EL' & Si & Z') | (-> & _)]; [|exact I]. exfalso.
    destruct (AB i) as (u & ->); [rewrite EL'; apply in_or_app; right; left; reflexivity|eapply sets_about; eauto|]. apply (S u). rewrite EL'. apply in_or_app. right. left. reflexivity.
Qed.
Lemma get_flag : forall argv l vals ns o a, line P argv l vals -> means l vals ns -> option_of P o a -> a_strings a = [o] -> a_kind a = KTrue ->
  (In (IFlag o) l -> get_attr ns (a_dest a) = Some (ABool true)) /\ (~ In (IFlag o) l -> get_attr ns (a_dest a) = Some (a_default a)).
Proof.
  intros argv l vals ns o a LI M A E K. assert (N := means_nodup _ _ _ M). assert (W := line_items _ _ _ LI). rewrite Forall_forall in W.
  destruct (means_has _ _ _ a M (proj1 A) ltac:(congruence)) as (v & I).
  assert (AB : forall j, In j l -> about a j -> j = IFlag o).
  { intros [o' u|o'|u] J B; cbn in B; [|rewrite E in B; destruct B as [-> | []]; eauto|destruct B]. rewrite E in B. destruct B as [-> | []].
    destruct (W _ J) as (b & B & KB). exfalso. rewrite (option_unique P U o' b a B A) in KB. rewrite K in KB. destruct KB as [KB | [KB | KB]]; discriminate. }
  destruct M as (_ & _ & _ & O). assert (AS : a_strings a <> []) by (rewrite E; discriminate). specialize (O a v (proj1 A) AS I).
  destruct O as [(l1 & i & l2 & EL & Si & Z) | (-> & Z)].
  - assert (Il : In i l) by (rewrite EL; apply in_or_app; right; left; reflexivity). assert (i = IFlag o) by (apply AB; [exact Il|eapply sets_about; eauto]). subst i. destruct Si as (_ & ->).
    split; [intros _; apply get_in; assumption|intros X; contradiction].
  - split; [|intros _; apply get_in; assumption]. intros J. exfalso. apply (Z _ J). cbn. rewrite E. left. reflexivity.
Qed.
Lemma get_positional : forall l vals ns i a v, means l vals ns -> nth_error (positionals P) i = Some a -> nth_error vals i = Some v -> get_attr ns (a_dest a) = Some v.
Proof.
  intros l vals ns i a v M A V. assert (N := means_nodup _ _ _ M). apply get_in; [exact N|]. destruct M as (_ & (ps & HP & _ & R) & _). apply (the_positionals_iff P) in HP. subst ps. eapply R; eauto.
Qed.
Lemma vals_length : forall l vals ns, means l vals ns -> length vals = length (positionals P).
Proof. intros l vals ns (_ & (ps & HP & L & _) & _). apply (the_positionals_iff P) in HP. subst ps. congruence. Qed.

(** the places of the positionals do not matter *)
Lemma filter_split : forall (f : item -> bool) l m1 i m2, filter f l = m1 ++ i :: m2 -> exists l1 l2, l = l1 ++ i :: l2 /\ filter f l1 = m1 /\ filter f l2 = m2.
Proof.
  intros f. induction l as [|x l IH]; intros m1 i m2 H; cbn in H; [destruct m1; discriminate|]. destruct (f x) eqn:E.
  - destruct m1 as [|y m1]; cbn in H; injection H as -> H.
    + exists [], l. auto.
    + destruct (IH m1 i m2 H) as (l1 & l2 & -> & <- & <-). exists (y :: l1), l2. split; [reflexivity|]. cbn. rewrite E. auto.
  - destruct (IH m1 i m2 H) as (l1 & l2 & -> & <- & <-). exists (x :: l1), l2. split; [reflexivity|]. cbn. rewrite E. auto.
Qed.
Lemma means_same : forall l l' vals ns, same_options l l' -> means l vals ns -> means l' vals ns.
Proof.
  intros l l' vals ns S (T & PO & K & O). unfold same_options in S. set (f := fun i => negb (is_pos i)) in S.
  assert (IN : forall i, is_pos i = false -> In i l' -> In i l).
  { intros i Hi J. assert (J' : In i (filter f l')) by (apply filter_In; unfold f; rewrite Hi; auto). rewrite <- S in J'. apply filter_In in J'. apply J'. }
  split; [|split; [exact PO|split; [exact K|]]].
  - intros o s J. apply (T o s). apply IN; auto.
  - intros a v A AS J. destruct (O a v A AS J) as [(l1 & i & l2 & EL & Si & Z) | (-> & Z)].
    + left. assert (fi : f i = true) by (destruct i; cbn in *; [reflexivity|reflexivity|destruct Si]).
      assert (E : filter f l' = filter f l1 ++ i :: filter f l2) by (rewrite <- S, EL, filter_app; cbn; now rewrite fi).
      destruct (filter_split f l' _ _ _ E) as (m1 & m2 & EM & _ & E2). exists m1, i, m2. split; [exact EM|]. split; [exact Si|]. intros j J2 B.
      apply (Z j); [|exact B]. assert (X : In j (filter f m2)) by (apply filter_In; split; [exact J2|]; destruct j; cbn in *; [reflexivity|reflexivity|destruct B]). rewrite E2 in X. apply filter_In in X. apply X.
    + right. split; [reflexivity|]. intros j J2 B. apply (Z j); [|exact B]. apply IN; [|exact J2]. destruct j; cbn in *; [reflexivity|reflexivity|destruct B].
Qed.
Lemma order_free : forall argv argv' l l' vals, line P argv l vals -> line P argv' l' vals -> same_options l l' ->
  parse_args to_float to_int P argv = parse_args to_float to_int P argv'.
Proof.
  intros argv argv' l l' vals L L' S.
  assert (X : forall a b l l' vals ns, line P a l vals -> line P b l' vals -> same_options l l' -> parse_args to_float to_int P a = Parsed ns -> parse_args to_float to_int P b = Parsed ns).
  { intros a b m m' vs ns La Lb Sm H. assert (H' := H). apply (accepted to_float to_int P U) in H. apply (accepted to_float to_int P U). exists m', vs. split; [exact Lb|]. apply (means_same m); [exact Sm|].
    apply (line_line' P U) in La. rewrite (parse_args_PA to_float to_int P), (PA_line' to_float to_int P U _ _ _ La) in H'. cbn in H'. destruct (exec to_float to_int P m vs (positionals P) (defaults P)) as [n|] eqn:E; [|discriminate].
    injection H' as ->. apply (result_means to_float to_int P U). apply (exec_result to_float to_int P U); [apply (line_well P _ _ _ La)|split; rewrite defaults_keys; [apply (dests_nodup P U)|apply dests_has]|intros x J; exact J| |exact E].
    assert (N : NoDup (map a_dest P)) by apply U. unfold positionals. clear - N. induction P as [|c q IH]; [constructor|]. cbn in *. inversion N as [|? ? N1 N2]; subst. destruct (a_strings c); [|auto].
    cbn. constructor; [|auto]. intros H. apply N1. apply in_map_iff in H. destruct H as (b & E & H). apply filter_In in H. apply in_map_iff. exists b. tauto. }
  assert (Y : forall a l vals, line P a l vals -> (exists ns, parse_args to_float to_int P a = Parsed ns) \/ parse_args to_float to_int P a = Exit2).
  { intros a m vs La. apply (line_line' P U) in La. rewrite (parse_args_PA to_float to_int P), (PA_line' to_float to_int P U _ _ _ La). cbn. destruct (exec _ _ _ _ _ _ _) as [n|]; cbn; [left; exists n; reflexivity|right; reflexivity]. }
  destruct (Y _ _ _ L) as [(ns & E) | E].
  - rewrite E. symmetry. exact (X _ _ _ _ _ _ L L' S E).
  - destruct (Y _ _ _ L') as [(ns & E') | E']; [|congruence]. assert (S' : same_options l' l) by (unfold same_options in *; congruence). rewrite (X _ _ _ _ _ _ L' L S' E') in E. discriminate.
Qed.

(** words that look like options *)
Lemma items_words : forall a l, items P a l -> forall w, In w a -> plain P w \/ exists o e, reads P w o e.
Proof.
  intros a l H. induction H; intros x I; try (destruct I as [<- | I]); eauto.
  - destruct I.
  - destruct I as [<- | I]; eauto.
Qed.
Lemma unknown_word : forall a w r ns, ~ In "--"%string a -> unknown P w -> parse_args to_float to_int P (a ++ w :: r) <> Parsed ns.
Proof.
  intros a w r ns N H X. apply (accepted to_float to_int P U) in X. destruct X as (l & vals & L & _).
  assert (NP : ~ plain P w) by (intros Q; apply (po_plain P U) in Q; rewrite (po_unknown P U w H) in Q; discriminate).
  assert (NR : forall o e, ~ reads P w o e) by apply H. assert (NW : w <> "--"%string) by apply H.
  assert (Q : forall h q t, a ++ w :: r = h ++ q -> (q = [] \/ exists b, q = "--"%string :: b) -> items P h t -> False).
  { intros h q t E D I. assert (J : In w h).
    { clear - N NW E D. revert h E. induction a as [|x a IH]; intros h E.
      - destruct h as [|y h]; cbn in E; [destruct D as [-> | (b & ->)]; congruence|]. left. congruence.
      - destruct h as [|y h]; cbn in E; [destruct D as [-> | (b & ->)]; [discriminate|]; exfalso; apply N; left; congruence|]. right. apply IH; [intros J; apply N; right; exact J|congruence]. }
    destruct (items_words h t I w J) as [Q | (o & e & Q)]; [auto|eapply NR; eauto]. }
  inversion L as [argv m I E1 E2 E3|h m b I EP E1 E2 E3|h m v b I EP E1 E2 E3]; subst.
  - apply (Q (a ++ w :: r) [] l); [now rewrite app_nil_r|left; reflexivity|exact I].
  - apply (Q h ("--"%string :: b) l); [congruence|right; eauto|exact I].
  - apply (Q h ("--"%string :: v :: b) l); [congruence|right; eauto|exact I].
Qed.
End Derived.
