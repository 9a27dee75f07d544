(** C55: what the download script leaves behind, for every state of the
    directory, server and serialisation. *)
From Coq Require Import List ZArith Lia Bool String Ascii DecimalString.
From Verif Require Import PyBase Takahashi P_Taka Download.
Import ListNotations.
Open Scope string_scope.
Open Scope Z_scope.
Notation length := List.length.

(** ** file names *)

(** reading the options back from the fixed positions of a name *)
Definition triples : list (Z * Z * Z) :=
  flat_map (fun n => flat_map (fun r => map (fun z => (n, Z.of_nat r, Z.of_nat z)) (seq 1 66)) (seq 0 108)) [12; 13].
Lemma triples_all : forall n r z, options_ok n r z = Ok tt -> In (n, r, z) triples.
Proof.
  intros n r z H. apply C46_options in H. destruct H as (Hn & Hr & Hz). unfold triples. apply in_flat_map. exists n. split; [destruct Hn as [-> | ->]; cbn; auto|].
  apply in_flat_map. exists (Z.to_nat r). split; [apply in_seq; lia|]. apply in_map_iff. exists (Z.to_nat z). split; [f_equal; [f_equal|]; lia|apply in_seq; lia].
Qed.
Definition num (s : string) : Z := match py_int s with Ok z => z | Raise _ => -1 end.
Definition back_bin (s : string) : Z * Z * Z :=
  (num (substring 14 2 s), num (substring 17 3 s), num (substring 23 (String.length s - 31) s)).
Definition back_fits (s : string) : Z * Z * Z :=
  (Z.log2 (num (substring 9 4 s)), num (substring 14 3 s), num (substring 20 (String.length s - 31) s)).
Definition triple_eqb (a b : Z * Z * Z) : bool :=
  let '(x, y, z) := a in let '(x', y', z') := b in (x =? x') && (y =? y') && (z =? z').
Lemma names_back : forallb (fun t => let '(n, r, z) := t in
    triple_eqb (back_bin (filename_bin n r z)) t && triple_eqb (back_fits (filename_fits n r z)) t) triples = true.
Proof. vm_compute. reflexivity. Qed.
Lemma triple_eqb_eq : forall a b, triple_eqb a b = true -> a = b.
Proof. intros [[x y] z] [[x' y'] z'] H. cbn in H. rewrite !andb_true_iff, !Z.eqb_eq in H. destruct H as ((-> & ->) & ->). reflexivity. Qed.

(** different options use different files; none of them is output.fits *)
Theorem C55_names : forall n r z n' r' z', options_ok n r z = Ok tt -> options_ok n' r' z' = Ok tt ->
  (filename_bin n r z = filename_bin n' r' z' -> (n, r, z) = (n', r', z')) /\
  (filename_fits n r z = filename_fits n' r' z' -> (n, r, z) = (n', r', z')) /\
  filename_bin n r z <> filename_fits n' r' z' /\ filename_bin n r z <> "output.fits" /\ filename_fits n r z <> "output.fits".
Proof.
  intros n r z n' r' z' H H'. assert (B := names_back). rewrite forallb_forall in B.
  assert (B1 := B _ (triples_all _ _ _ H)). assert (B2 := B _ (triples_all _ _ _ H')). cbv beta iota in B1, B2.
  apply andb_true_iff in B1, B2. destruct B1 as (B1 & F1). destruct B2 as (B2 & F2). apply triple_eqb_eq in B1, F1, B2, F2.
  split; [intros E; congruence|]. split; [intros E; congruence|]. split; [|split]; intros E; discriminate E.
Qed.
Print Assumptions C55_names.

Definition address (nres : Z) (file : string) : string :=
  "http://cosmo.phys.hirosaki-u.ac.jp/takahasi/allsky_raytracing/sub1/nres" ++ NilZero.string_of_int (Z.to_int nres) ++ "/" ++ file.
(** the address names the directory of the resolution asked for *)
Theorem C55_url : forall nres r z, 10 <= nres <= 99 ->
  url_of (filename_bin nres r z) =
  Ok (address nres (filename_bin nres r z)).
Proof.
  intros nres r z H. unfold url_of.
  assert (Q : forall rest, nres_of ("allskymap_nres" ++ dec nres ++ rest) = Ok nres).
  { assert (X : forallb (fun k => match dec k with String a (String b EmptyString) => match py_int (dec k) with Ok m => m =? k | _ => false end | _ => false end)
       (map Z.of_nat (seq 10 90)) = true) by (vm_compute; reflexivity).
    rewrite forallb_forall in X. assert (I : In nres (map Z.of_nat (seq 10 90))) by (apply in_map_iff; exists (Z.to_nat nres); split; [lia|apply in_seq; lia]).
    specialize (X _ I). destruct (dec nres) as [|a [|b [|]]]; try discriminate.
    destruct (py_int (String a (String b ""))) as [m|] eqn:E; [|discriminate]. apply Z.eqb_eq in X. subst m. intros rest.
    unfold nres_of. replace (find_nres ("allskymap_nres" ++ String a (String b "") ++ rest)) with 10 by reflexivity.
    change (Z.to_nat (10 + 4)) with 14%nat. cbn [append substring]. destruct rest; exact E. }
  unfold filename_bin. rewrite Q. reflexivity.
Qed.
Print Assumptions C55_url.

(** ** one run *)

Definition same_files (a b : string -> option (list Z)) : Prop := forall name, a name = b name.

(** the header printed is the one of the contents *)
Lemma header_of : forall s k, read_contents s = Ok k ->
  (let* (_, s) := read1 s in let* (nside, s) := read1 s in let* (npix, s) := read_int64 s in let* _ := read1 s in Ok (int32 nside, npix)) = Ok (c_nside k, c_npix k).
Proof.
  intros s k H. unfold read_contents in H. destruct s as [|a s]; [discriminate|]. cbn [read1 rbind] in H |- *.
  destruct s as [|b s]; [discriminate|]. cbn [read1 rbind] in H |- *.
  destruct (read_int64 s) as [[n s']|] eqn:E; [|discriminate]. cbn [rbind] in H |- *.
  destruct s' as [|c s']; [discriminate|]. cbn [read1 rbind] in H |- *. destruct s' as [|d s']; [discriminate|]. cbn [read1 rbind] in H |- *.
  destruct (read_field load_blocks n [] s') as [k1 s1]. destruct (read_field load_blocks n [] s1) as [k2 s2].
  destruct (read_field load_blocks n [] s2) as [k3 s3]. destruct (read_field load_blocks n [] s3) as [k4 s4].
  injection H as <-. reflexivity.
Qed.

Lemma put_same : forall fs name c, put fs name c name = c.
Proof. intros. unfold put. rewrite String.eqb_refl. reflexivity. Qed.
Lemma put_other : forall fs name c k, k <> name -> put fs name c k = fs k.
Proof. intros fs name c k H. unfold put. destruct (String.eqb_spec k name); [contradiction|reflexivity]. Qed.

Section One.
Context {V : Type} (net : string -> res response) (f32 : Z -> V) (ser : list V -> option (list Z) * res unit).

(** converting a complete file *)
Lemma convert_ok : forall name w s k c, d_files w name = Some s -> d_files w "output.fits" = None -> read_contents s = Ok k -> ser (map f32 (c_kappa k)) = (Some c, Ok tt) ->
  convert f32 ser name w = (mkDW (put (d_files w) "output.fits" (Some c)) (d_urls w) (d_out w ++ [MHeader (c_nside k) (c_npix k)] ++ [MCompleted]), Ok tt).
Proof.
  intros name w s k c E1 E2 E3 E4. unfold convert, dbind, dread, dlift. rewrite E1. rewrite (header_of _ _ E3). cbn [dprint d_files d_urls d_out fst snd].
  rewrite E3. unfold write_map, dbind, dread. cbn [d_files]. rewrite E2, E4. cbn. rewrite <- app_assoc. reflexivity.
Qed.

(** nothing there yet and a complete answer: the binary file and the map are
    stored, output.fits is gone again, everything else is as before *)
Theorem C55_download : forall n r z w a len k c,
  let bin := filename_bin n r z in let fits := filename_fits n r z in
  options_ok n r z = Ok tt -> d_files w fits = None -> d_files w bin = None -> d_files w "output.fits" = None ->
  net (address n bin) = Ok a ->
  r_length a = Some (Ok len) -> r_break a = None ->
  read_contents (r_body a) = Ok k -> ser (map f32 (c_kappa k)) = (Some c, Ok tt) ->
  exists w', download_script net f32 ser n r z w = (w', Ok tt) /\
    (forall name, d_files w' name = if String.eqb name fits then Some c else if String.eqb name bin then Some (r_body a) else d_files w name) /\
    d_urls w' = (d_urls w ++ [address n bin])%list /\
    d_out w' = (d_out w ++ [MDownloading; MConverting bin fits; MHeader (c_nside k) (c_npix k); MCompleted])%list.
Proof.
  intros n r z w a len k c bin fits HO F1 F2 F3 EN EL EB ER ES.
  destruct (C55_names n r z n r z HO HO) as (_ & _ & N1 & N2 & N3). fold bin fits in N1, N2, N3.
  assert (HN : 10 <= n <= 99) by (apply C46_options in HO; lia).
  unfold download_script. fold bin fits. unfold dbind at 1, dlift at 1. rewrite HO. unfold dbind at 1, dread at 1. rewrite F1.
  unfold dbind at 1, dread at 1. rewrite F2. unfold dbind at 1. unfold dbind at 1. cbn [dprint].
  unfold download_binary, dbind at 1, dlift at 1. unfold bin at 1. rewrite (C55_url n r z HN). fold bin.
  unfold dbind at 1, dget. rewrite EN. cbn [d_files d_urls d_out]. unfold dbind at 1, dlift at 1. rewrite EL. unfold dbind at 1, dput at 1. cbn [d_files d_urls d_out].
  rewrite EB. cbn [dret]. unfold dbind at 1. cbn [dprint d_files d_urls d_out]. unfold dbind at 1.
  rewrite (convert_ok bin _ (r_body a) k c); [|cbn [d_files]; apply put_same|cbn [d_files]; rewrite put_other by congruence; exact F3|exact ER|exact ES].
  cbn [d_files d_urls d_out]. unfold drename, dbind, dread, dput. cbn [d_files d_urls d_out]. rewrite put_same.
  eexists. split; [reflexivity|]. cbn [d_files d_urls d_out]. split; [|split; [reflexivity|rewrite <- !app_assoc; reflexivity]].
  intros name. unfold put. destruct (String.eqb_spec name fits) as [->|NF]; [reflexivity|].
  destruct (String.eqb_spec name "output.fits") as [->|NO]; [|reflexivity].
  destruct (String.eqb_spec "output.fits" bin); [congruence|]. symmetry. exact F3.
Qed.

(** the map is there: one line is printed and that is all *)
Theorem C55_found : forall n r z w c, options_ok n r z = Ok tt -> d_files w (filename_fits n r z) = Some c ->
  download_script net f32 ser n r z w = (mkDW (d_files w) (d_urls w) (d_out w ++ [MFound (filename_fits n r z)]), Ok tt).
Proof. intros n r z w c HO F. unfold download_script, dbind, dlift, dread. rewrite HO, F. reflexivity. Qed.

(** options that are refused: nothing happens *)
Theorem C55_refused : forall n r z w, options_ok n r z <> Ok tt -> download_script net f32 ser n r z w = (w, Raise AssertionError).
Proof.
  intros n r z w H. unfold download_script, dbind, dlift. destruct (C46_rejects n r z) as [Q|Q]; rewrite Q; [contradiction|reflexivity].
Qed.

(** only the binary file is there: it is converted as it is, nobody is asked *)
Theorem C55_conversion : forall n r z w s k c,
  let bin := filename_bin n r z in let fits := filename_fits n r z in
  options_ok n r z = Ok tt -> d_files w fits = None -> d_files w bin = Some s -> d_files w "output.fits" = None ->
  read_contents s = Ok k -> ser (map f32 (c_kappa k)) = (Some c, Ok tt) ->
  exists w', download_script net f32 ser n r z w = (w', Ok tt) /\
    (forall name, d_files w' name = if String.eqb name fits then Some c else d_files w name) /\ d_urls w' = d_urls w /\
    d_out w' = (d_out w ++ [MConverting bin fits; MHeader (c_nside k) (c_npix k); MCompleted])%list.
Proof.
  intros n r z w s k c bin fits HO F1 F2 F3 ER ES.
  destruct (C55_names n r z n r z HO HO) as (_ & _ & N1 & N2 & N3). fold bin fits in N1, N2, N3.
  unfold download_script. fold bin fits. unfold dbind at 1, dlift at 1. rewrite HO. unfold dbind at 1, dread at 1. rewrite F1.
  unfold dbind at 1, dread at 1. rewrite F2. unfold dbind at 1. cbn [dret]. unfold dbind at 1. cbn [dprint]. unfold dbind at 1.
  rewrite (convert_ok bin _ s k c); auto.
  cbn [d_files d_urls d_out]. unfold drename, dbind, dread, dput. cbn [d_files d_urls d_out]. rewrite put_same.
  eexists. split; [reflexivity|]. cbn [d_files d_urls d_out]. split; [|split; [reflexivity|rewrite <- !app_assoc; reflexivity]].
  intros name. unfold put. destruct (String.eqb_spec name fits) as [->|NF]; [reflexivity|].
  destruct (String.eqb_spec name "output.fits") as [->|NO]; [symmetry; exact F3|reflexivity].
Qed.

(** the part before the conversion, in any case *)
Lemma fetch_cases : forall bin w w' out, (match d_files w bin with Some _ => dret tt | None => dbind (dprint MDownloading) (fun _ => download_binary net bin) end) w = (w', out) ->
  (forall name, name <> bin -> d_files w' name = d_files w name) /\
  (d_files w bin <> None -> w' = w /\ out = Ok tt) /\
  (d_files w bin = None -> (d_urls w' = d_urls w \/ exists u, url_of bin = Ok u /\ d_urls w' = (d_urls w ++ [u])%list) /\
     (out = Ok tt -> exists a u, url_of bin = Ok u /\ net u = Ok a /\ d_files w' bin = Some (r_body a) /\ r_break a = None)).
Proof.
  intros bin w w' out E. destruct (d_files w bin) as [c|] eqn:F.
  - cbn in E. injection E as <- <-. split; [auto|]. split; [auto|]. discriminate.
  - unfold dbind at 1 in E. cbn [dprint] in E. unfold download_binary, dbind at 1, dlift at 1 in E.
    destruct (url_of bin) as [u|e] eqn:EU.
    2:{ injection E as <- <-. split; [auto|]. split; [intros Q; destruct (Q eq_refl)|]. intros _. split; [left; reflexivity|discriminate]. }
    unfold dbind at 1, dget in E. cbn [d_files d_urls d_out] in E. destruct (net u) as [a|e] eqn:EA.
    2:{ injection E as <- <-. split; [auto|]. split; [intros Q; destruct (Q eq_refl)|]. intros _. split; [right; exists u; auto|discriminate]. }
    unfold dbind at 1, dlift at 1 in E.
    assert (HB : forall e, (mkDW (d_files w) (d_urls w ++ [u]) (d_out w ++ [MDownloading]), Raise e) = (w', out) ->
      (forall name, name <> bin -> d_files w' name = d_files w name) /\ (None <> None :> option (list Z) -> w' = w /\ out = Ok tt) /\
      (None = None :> option (list Z) -> (d_urls w' = d_urls w \/ exists u, Ok u = Ok u /\ d_urls w' = (d_urls w ++ [u])%list) /\ (out = Ok tt -> False)) /\ d_urls w' = (d_urls w ++ [u])%list).
    { intros e Q. injection Q as <- <-. split; [auto|]. split; [intros Q; destruct (Q eq_refl)|]. split; [|reflexivity]. intros _. split; [right; exists u; auto|discriminate]. }
    destruct (r_length a) as [[len|e]|].
    2:{ destruct (HB _ E) as (A & B & C & U). split; [exact A|]. split; [exact B|]. intros _. split; [right; exists u; auto|]. intros O. destruct (proj2 (C eq_refl) O). }
    2:{ destruct (HB _ E) as (A & B & C & U). split; [exact A|]. split; [exact B|]. intros _. split; [right; exists u; auto|]. intros O. destruct (proj2 (C eq_refl) O). }
    unfold dbind at 1, dput at 1 in E. cbn [d_files d_urls d_out] in E.
    assert (Q : w' = mkDW (put (d_files w) bin (Some (r_body a))) (d_urls w ++ [u]) (d_out w ++ [MDownloading]) /\ out = match r_break a with Some e => Raise e | None => Ok tt end).
    { destruct (r_break a); cbn in E; injection E as <- <-; auto. }
    destruct Q as (-> & ->). cbn [d_files d_urls]. split; [intros name N; apply put_other; exact N|]. split; [intros Q; destruct (Q eq_refl)|].
    intros _. split; [right; exists u; auto|]. intros O. exists a, u. rewrite put_same. destruct (r_break a); [discriminate|auto].
Qed.

(** the conversion, in any case *)
Lemma convert_cases : forall bin w w' out, convert f32 ser bin w = (w', out) ->
  d_urls w' = d_urls w /\ (forall name, name <> "output.fits" -> d_files w' name = d_files w name) /\
  (d_files w "output.fits" <> None -> d_files w' "output.fits" = d_files w "output.fits" /\ out <> Ok tt) /\
  (out = Ok tt -> exists s k, d_files w bin = Some s /\ read_contents s = Ok k /\ ser (map f32 (c_kappa k)) = (d_files w' "output.fits", Ok tt)).
Proof.
  intros bin w w' out E. unfold convert, dbind at 1, dread at 1, dbind at 1, dlift at 1 in E.
  assert (HB : forall o e, (mkDW (d_files w) (d_urls w) o, Raise e) = (w', out) ->
    d_urls w' = d_urls w /\ (forall name, name <> "output.fits" -> d_files w' name = d_files w name) /\
    (d_files w "output.fits" <> None -> d_files w' "output.fits" = d_files w "output.fits" /\ out <> Ok tt) /\
    (out = Ok tt -> exists s k, d_files w bin = Some s /\ read_contents s = Ok k /\ ser (map f32 (c_kappa k)) = (d_files w' "output.fits", Ok tt))).
  { intros o e Q. injection Q as <- <-. split; [reflexivity|]. split; [auto|]. split; [split; [reflexivity|discriminate]|discriminate]. }
  assert (W0 : w = mkDW (d_files w) (d_urls w) (d_out w)) by (destruct w; reflexivity).
  destruct (d_files w bin) as [s|] eqn:F.
  2:{ rewrite W0 in E. exact (HB _ _ E). }
  unfold dbind at 1, dlift at 1 in E.
  destruct (let* (_, s0) := read1 s in let* (nside, s1) := read1 s0 in let* (npix, s2) := read_int64 s1 in let* _ := read1 s2 in Ok (int32 nside, npix)) as [h|e] eqn:EH.
  2:{ rewrite W0 in E. exact (HB _ _ E). }
  unfold dbind at 1 in E. cbn [dprint] in E. unfold dbind at 1, dlift at 1 in E. destruct (read_contents s) as [k|e] eqn:EK.
  2:{ exact (HB _ _ E). }
  unfold dbind at 1 in E. cbn [dprint d_files d_urls d_out] in E. unfold write_map, dbind at 1, dread at 1 in E. cbn [d_files d_urls d_out] in E.
  destruct (d_files w "output.fits") as [o|] eqn:FO.
  { unfold dlift in E. exact (HB _ _ E). }
  destruct (ser (map f32 (c_kappa k))) as [lf o] eqn:ES. unfold dbind, dput, dlift in E. cbn [d_files d_urls d_out] in E. injection E as <- <-. cbn [d_files d_urls].
  split; [reflexivity|]. split; [intros name N; apply put_other; exact N|]. split; [intros Q; destruct (Q eq_refl)|].
  intros O. exists s, k. rewrite put_same. split; [reflexivity|]. split; [exact EK|]. rewrite ES, O. reflexivity.
Qed.

(** whatever happens: no file that was there is changed (the map only appears,
    the binary file is written only where there was none, output.fits is never
    overwritten), nothing else is touched, at most one request is made and only
    if neither file was there; and if the run comes through, there is a map, a
    new one being that of the binary file *)
Theorem C55_every_outcome : forall n r z w w' out,
  let bin := filename_bin n r z in let fits := filename_fits n r z in
  download_script net f32 ser n r z w = (w', out) ->
  (forall name s, d_files w name = Some s -> d_files w' name = Some s) /\
  (forall name, name <> bin -> name <> fits -> name <> "output.fits" -> d_files w' name = d_files w name) /\
  (d_urls w' = d_urls w \/ d_files w bin = None /\ d_files w fits = None /\ exists u, url_of bin = Ok u /\ d_urls w' = (d_urls w ++ [u])%list) /\
  (out <> Ok tt -> d_files w' fits = d_files w fits) /\
  (out = Ok tt -> d_files w fits = None -> d_files w "output.fits" = None /\ d_files w' "output.fits" = None /\
     exists s k c, d_files w' bin = Some s /\ read_contents s = Ok k /\ ser (map f32 (c_kappa k)) = (Some c, Ok tt) /\ d_files w' fits = Some c /\
       (d_files w bin = Some s \/ d_files w bin = None /\ exists u a, url_of bin = Ok u /\ net u = Ok a /\ r_break a = None /\ s = r_body a)).
Proof.
  intros n r z w w' out bin fits E.
  destruct (options_ok n r z) as [[]|e] eqn:HO.
  2:{ unfold download_script, dbind at 1, dlift at 1 in E. rewrite HO in E. injection E as <- <-.
      split; [auto|]. split; [auto|]. split; [left; reflexivity|]. split; [auto|discriminate]. }
  destruct (C55_names n r z n r z HO HO) as (_ & _ & N1 & N2 & N3). fold bin fits in N1, N2, N3.
  unfold download_script in E. fold bin fits in E. unfold dbind at 1, dlift at 1 in E. rewrite HO in E. unfold dbind at 1, dread at 1 in E.
  destruct (d_files w fits) as [cf|] eqn:FF.
  { cbn in E. injection E as <- <-. cbn [d_files d_urls]. split; [auto|]. split; [auto|]. split; [left; reflexivity|]. split; [intros Q; destruct (Q eq_refl)|discriminate]. }
  unfold dbind at 1, dread at 1 in E. unfold dbind at 1 in E.
  destruct ((match d_files w bin with Some _ => dret tt | None => dbind (dprint MDownloading) (fun _ => download_binary net bin) end) w) as [w1 [[]|e]] eqn:E1.
  2:{ injection E as <- <-. destruct (fetch_cases _ _ _ _ E1) as (A & B & C).
      assert (FB : d_files w bin = None) by (destruct (d_files w bin); [destruct B as (_ & B); [discriminate|discriminate]|reflexivity]).
      split; [intros name s Hs; rewrite A; [exact Hs|congruence]|]. split; [intros; apply A; assumption|].
      split; [destruct (proj1 (C FB)) as [Q|Q]; [left; exact Q|right; auto]|]. split; [intros _; rewrite A by congruence; exact FF|discriminate]. }
  destruct (fetch_cases _ _ _ _ E1) as (A & B & C).
  assert (K1 : forall name s, d_files w name = Some s -> d_files w1 name = Some s).
  { intros name s Hs. destruct (String.string_dec name bin) as [->|NB]; [|rewrite A; assumption].
    destruct B as (-> & _); [congruence|exact Hs]. }
  assert (U1 : d_urls w1 = d_urls w \/ d_files w bin = None /\ None = None :> option (list Z) /\ exists u, url_of bin = Ok u /\ d_urls w1 = (d_urls w ++ [u])%list).
  { destruct (d_files w bin) eqn:FB; [left; destruct B as (-> & _); [discriminate|reflexivity]|].
    destruct (proj1 (C eq_refl)) as [Q|Q]; [left; exact Q|right; auto]. }
  unfold dbind at 1 in E. cbn [dprint] in E. unfold dbind at 1 in E.
  destruct (convert f32 ser bin (mkDW (d_files w1) (d_urls w1) (d_out w1 ++ [MConverting bin fits]))) as [w2 [[]|e]] eqn:E2;
    destruct (convert_cases _ _ _ _ E2) as (U2 & A2 & B2 & C2); cbn [d_files d_urls] in U2, A2, B2, C2.
  2:{ injection E as <- <-.
      split. { intros name s Hs. destruct (String.string_dec name "output.fits") as [->|NO]; [|rewrite A2 by exact NO; apply K1; exact Hs].
               rewrite (K1 _ _ Hs) in B2. apply B2. discriminate. }
      split; [intros; rewrite A2 by assumption; apply A; assumption|].
      split; [rewrite U2; destruct U1 as [U1|(U1 & _ & U3)]; auto|].
      split; [intros _; rewrite A2 by congruence; rewrite A by congruence; exact FF|discriminate]. }
  destruct (C2 eq_refl) as (s & k & Q1 & Q2 & Q3).
  assert (FO1 : d_files w1 "output.fits" = None) by (destruct (d_files w1 "output.fits"); [destruct B2 as (_ & B2); [discriminate|destruct (B2 eq_refl)]|reflexivity]).
  assert (FO : d_files w "output.fits" = None) by (rewrite <- FO1; symmetry; apply A; congruence).
  unfold drename, dbind at 1, dread at 1 in E. destruct (d_files w2 "output.fits") as [c|] eqn:FO2.
  2:{ unfold dlift in E. injection E as <- <-.
      split. { intros name s' Hs. destruct (String.string_dec name "output.fits") as [->|NO]; [congruence|rewrite A2 by exact NO; apply K1; exact Hs]. }
      split; [intros; rewrite A2 by assumption; apply A; assumption|].
      split; [rewrite U2; destruct U1 as [U1|(U1 & _ & U3)]; auto|].
      split; [intros _; rewrite A2 by congruence; rewrite A by congruence; exact FF|discriminate]. }
  unfold dbind, dput in E. cbn [d_files d_urls d_out] in E. injection E as <- <-. cbn [d_files d_urls].
  assert (PF : forall name, name <> fits -> name <> "output.fits" -> put (put (d_files w2) "output.fits" None) fits (Some c) name = d_files w1 name).
  { intros name H1 H2. rewrite !put_other by assumption. apply A2. exact H2. }
  split. { intros name s' Hs. rewrite PF by congruence. apply K1. exact Hs. }
  split; [intros; rewrite PF by assumption; apply A; assumption|].
  split; [rewrite U2; destruct U1 as [U1|(U1 & _ & U3)]; auto|].
  split; [intros Q; destruct (Q eq_refl)|]. intros _ _.
  split; [exact FO|]. split; [rewrite put_other by congruence; apply put_same|].
  exists s, k, c. rewrite put_same, PF by congruence. split; [exact Q1|]. split; [exact Q2|]. split; [exact Q3|]. split; [reflexivity|].
  destruct (d_files w bin) as [sb|] eqn:FB.
  - left. rewrite (K1 _ _ FB) in Q1. exact Q1.
  - right. split; [reflexivity|]. destruct (proj2 (C eq_refl) eq_refl) as (a & u & X1 & X2 & X3 & X4). exists u, a. rewrite X3 in Q1. injection Q1 as <-. auto.
Qed.
End One.
Print Assumptions C55_download.
Print Assumptions C55_found.
Print Assumptions C55_refused.
Print Assumptions C55_conversion.
Print Assumptions C55_every_outcome.

(** ** failures and what they leave *)
Section Failures.
Context {V : Type} (net : string -> res response) (f32 : Z -> V) (ser : list V -> option (list Z) * res unit).

(** no connection, or no usable Content-Length: the exception, no file *)
Theorem C55_no_transfer : forall n r z w,
  let bin := filename_bin n r z in let fits := filename_fits n r z in
  options_ok n r z = Ok tt -> d_files w fits = None -> d_files w bin = None ->
  let asked := mkDW (d_files w) (d_urls w ++ [address n bin]) (d_out w ++ [MDownloading]) in
  (forall e, net (address n bin) = Raise e -> download_script net f32 ser n r z w = (asked, Raise e)) /\
  (forall a, net (address n bin) = Ok a -> r_length a = None -> download_script net f32 ser n r z w = (asked, Raise TypeError)) /\
  (forall a e, net (address n bin) = Ok a -> r_length a = Some (Raise e) -> download_script net f32 ser n r z w = (asked, Raise e)).
Proof.
  intros n r z w bin fits HO F1 F2 asked. assert (HN : 10 <= n <= 99) by (apply C46_options in HO; lia).
  assert (Q : download_script net f32 ser n r z w =
    match net (address n bin) with
    | Raise e => (asked, Raise e)
    | Ok a => dbind (dbind (dlift (match r_length a with None => Raise TypeError | Some m => m end)) (fun _ => dbind (dput bin (Some (r_body a))) (fun _ =>
                match r_break a with Some e => dlift (Raise e) | None => dret tt end)))
              (fun _ => dbind (dprint (MConverting bin fits)) (fun _ => dbind (convert f32 ser bin) (fun _ => drename "output.fits" fits))) asked
    end).
  { unfold download_script. fold bin fits. unfold dbind at 1, dlift at 1. rewrite HO. unfold dbind at 1, dread at 1. rewrite F1.
    unfold dbind at 1, dread at 1. rewrite F2. unfold dbind at 1. unfold dbind at 1. cbn [dprint].
    unfold download_binary, dbind at 1, dlift at 1. unfold bin at 1. rewrite (C55_url n r z HN). fold bin.
    unfold dbind at 1, dget. fold asked. cbn [d_files d_urls d_out]. destruct (net (address n bin)); reflexivity. }
  split; [intros e E; rewrite Q, E; reflexivity|]. split; intros a; [intros E1 E2|intros e E1 E2]; rewrite Q, E1; unfold dbind at 1, dbind at 1, dlift at 1; rewrite E2; reflexivity.
Qed.

(** a binary file that is too short, a left-over output.fits, a failing write *)
Theorem C55_failed_conversion : forall n r z w s,
  let bin := filename_bin n r z in let fits := filename_fits n r z in
  options_ok n r z = Ok tt -> d_files w fits = None -> d_files w bin = Some s ->
  ((length s < 6)%nat -> exists w', download_script net f32 ser n r z w = (w', Raise IndexError) /\ same_files (d_files w') (d_files w)) /\
  (forall k, read_contents s = Ok k ->
    (forall c, d_files w "output.fits" = Some c ->
       exists w', download_script net f32 ser n r z w = (w', Raise (OpError 17)) /\ same_files (d_files w') (d_files w)) /\
    (forall c e, d_files w "output.fits" = None -> ser (map f32 (c_kappa k)) = (c, Raise e) ->
       exists w', download_script net f32 ser n r z w = (w', Raise e) /\
         (forall name, d_files w' name = if String.eqb name "output.fits" then c else d_files w name)) /\
    (d_files w "output.fits" = None -> ser (map f32 (c_kappa k)) = (None, Ok tt) ->
       exists w', download_script net f32 ser n r z w = (w', Raise (OpError 2)) /\ same_files (d_files w') (d_files w))).
Proof.
  intros n r z w s bin fits HO F1 F2.
  destruct (C55_names n r z n r z HO HO) as (_ & _ & N1 & N2 & N3). fold bin fits in N1, N2, N3.
  set (w0 := mkDW (d_files w) (d_urls w) (d_out w ++ [MConverting bin fits])).
  assert (Q : download_script net f32 ser n r z w = dbind (convert f32 ser bin) (fun _ => drename "output.fits" fits) w0).
  { unfold download_script. fold bin fits. unfold dbind at 1, dlift at 1. rewrite HO. unfold dbind at 1, dread at 1. rewrite F1.
    unfold dbind at 1, dread at 1. rewrite F2. unfold dbind at 1. cbn [dret]. unfold dbind at 1. reflexivity. }
  rewrite Q. clear Q. split.
  - intros L. unfold dbind at 1, convert, dbind at 1, dread at 1, dbind at 1, dlift at 1. unfold w0 at 1 2 3. cbn [d_files]. rewrite F2.
    destruct s as [|s1 [|s2 [|s3 [|s4 [|s5 [|s6 s]]]]]]; try (eexists; split; [reflexivity|intros name; reflexivity]). cbn in L. lia.
  - intros k EK. assert (EH := header_of _ _ EK).
    assert (QC : convert f32 ser bin w0 = write_map ser "output.fits" (map f32 (c_kappa k)) (mkDW (d_files w) (d_urls w) ((d_out w0 ++ [MHeader (c_nside k) (c_npix k)]) ++ [MCompleted]))).
    { unfold convert, dbind at 1, dread at 1, dbind at 1, dlift at 1. unfold w0 at 1 2 3. cbn [d_files]. rewrite F2. unfold dbind at 1, dlift at 1. rewrite EH.
      unfold dbind at 1. cbn [dprint]. unfold dbind at 1, dlift at 1. rewrite EK. unfold dbind at 1. reflexivity. }
    unfold dbind. rewrite QC. unfold write_map, dbind, dread. cbn [d_files]. split; [|split].
    + intros c FO. rewrite FO. eexists. split; [reflexivity|]. intros name. reflexivity.
    + intros c e FO ES. rewrite FO, ES. unfold dbind, dput, dlift. cbn [d_files]. eexists. split; [reflexivity|]. intros name. reflexivity.
    + intros FO ES. rewrite FO, ES. unfold dbind, dput, dlift, drename, dbind, dread. cbn [d_files]. rewrite put_same. eexists. split; [reflexivity|].
      intros name. cbn [d_files]. unfold put. destruct (String.eqb_spec name "output.fits") as [->|]; [symmetry; exact FO|reflexivity].
Qed.

(** download_binary by itself, for a name without "nres": characters 3 and 4 are
    taken for the resolution *)
Theorem C55_other_names : forall name w, index 0 "nres" name = None ->
  (substring 3 2 name = "" -> download_binary net name w = (w, Raise ValueError)) /\
  (forall a b rest, substring 3 2 name = String a rest -> rest = "" \/ rest = String b "" ->
    (nat_of_ascii a < 48 \/ 57 < nat_of_ascii a)%nat -> download_binary net name w = (w, Raise ValueError)).
Proof.
  intros name w H.
  assert (Q : nres_of name = py_int (substring 3 2 name)) by (unfold nres_of, find_nres; rewrite H; reflexivity).
  unfold download_binary, dbind at 1, dlift at 1, url_of. fold (@dbind). split.
  - intros E. unfold dbind, dlift. rewrite Q, E. reflexivity.
  - intros a b rest E HR HA. unfold dbind, dlift. rewrite Q, E. unfold py_int. cbn [digits]. unfold digit.
    destruct (Z.leb_spec 48 (Z.of_nat (nat_of_ascii a))); [|reflexivity]. destruct (Z.leb_spec (Z.of_nat (nat_of_ascii a)) 57); [lia|reflexivity].
Qed.
End Failures.
Print Assumptions C55_no_transfer.
Print Assumptions C55_failed_conversion.
Print Assumptions C55_other_names.

(** ** several runs *)
Section Again.
Context {V : Type} (f32 : Z -> V) (ser : list V -> option (list Z) * res unit).

(** the server's status code makes no difference: an error page is stored and
    converted like a map *)
Theorem C55_status_ignored : forall net st n r z w,
  download_script (fun u => let* a := net u in Ok (mkResp (st u) (r_length a) (r_body a) (r_break a))) f32 ser n r z w = download_script net f32 ser n r z w.
Proof.
  intros net st n r z w.
  assert (Q : forall name w, download_binary (fun u => let* a := net u in Ok (mkResp (st u) (r_length a) (r_body a) (r_break a))) name w = download_binary net name w).
  { intros name w0. unfold download_binary, dbind, dlift, dget. destruct (url_of name); [|reflexivity]. destruct (net a) as [[s l b k]|]; reflexivity. }
  unfold download_script, dbind, dlift, dread. destruct (options_ok n r z); [|reflexivity].
  destruct (d_files w (filename_fits n r z)); [reflexivity|]. destruct (d_files w (filename_bin n r z)); [reflexivity|].
  cbn [dprint]. rewrite Q. reflexivity.
Qed.

(** an interrupted transfer leaves what had arrived; from then on no run asks
    the server again, whatever it would send *)
Theorem C55_interrupted : forall net n r z w a len e,
  let bin := filename_bin n r z in let fits := filename_fits n r z in
  options_ok n r z = Ok tt -> d_files w fits = None -> d_files w bin = None ->
  net (address n bin) = Ok a -> r_length a = Some (Ok len) -> r_break a = Some e ->
  exists w1, download_script net f32 ser n r z w = (w1, Raise e) /\ d_files w1 bin = Some (r_body a) /\ d_files w1 fits = None /\
    (forall name, name <> bin -> d_files w1 name = d_files w name) /\
    forall net2 w2 w3 out, d_files w2 bin = Some (r_body a) -> download_script net2 f32 ser n r z w2 = (w3, out) ->
      d_urls w3 = d_urls w2 /\ d_files w3 bin = Some (r_body a).
Proof.
  intros net n r z w a len e bin fits HO F1 F2 EN EL EB.
  destruct (C55_names n r z n r z HO HO) as (_ & _ & N1 & N2 & N3). fold bin fits in N1, N2, N3.
  assert (HN : 10 <= n <= 99) by (apply C46_options in HO; lia).
  unfold download_script at 1. fold bin fits. unfold dbind at 1, dlift at 1. rewrite HO. unfold dbind at 1, dread at 1. rewrite F1.
  unfold dbind at 1, dread at 1. rewrite F2. unfold dbind at 1. unfold dbind at 1. cbn [dprint].
  unfold download_binary, dbind at 1, dlift at 1. unfold bin at 1. rewrite (C55_url n r z HN). fold bin.
  unfold dbind at 1, dget. rewrite EN. cbn [d_files d_urls d_out]. unfold dbind at 1, dlift at 1. rewrite EL. unfold dbind at 1, dput at 1. cbn [d_files d_urls d_out].
  rewrite EB. cbn [dlift]. eexists. split; [reflexivity|]. cbn [d_files]. split; [apply put_same|]. split; [rewrite put_other by congruence; exact F1|].
  split; [intros name N; apply put_other; exact N|].
  intros net2 w2 w3 out FB E. destruct (C55_every_outcome net2 f32 ser n r z w2 w3 out E) as (A & _ & B & _). fold bin fits in B. split.
  - destruct B as [B|(B & _)]; [exact B|congruence].
  - apply A. exact FB.
Qed.

(** with an output.fits left behind and no map, no run comes through *)
Theorem C55_leftover : forall net n r z w c w' out, d_files w "output.fits" = Some c -> d_files w (filename_fits n r z) = None ->
  download_script net f32 ser n r z w = (w', out) -> out <> Ok tt /\ d_files w' "output.fits" = Some c /\ d_files w' (filename_fits n r z) = None.
Proof.
  intros net n r z w c w' out F1 F2 E. destruct (C55_every_outcome net f32 ser n r z w w' out E) as (A & _ & _ & B & C).
  assert (NO : out <> Ok tt) by (intros Q; destruct (C Q F2) as (C1 & _); congruence).
  split; [exact NO|]. split; [apply A; exact F1|]. rewrite (B NO). exact F2.
Qed.

(** a second run after a successful one finds the map and changes no file *)
Theorem C55_second_run : forall net net2 n r z w w', download_script net f32 ser n r z w = (w', Ok tt) ->
  exists w2, download_script net2 f32 ser n r z w' = (w2, Ok tt) /\ same_files (d_files w2) (d_files w') /\ d_urls w2 = d_urls w' /\
    d_out w2 = (d_out w' ++ [MFound (filename_fits n r z)])%list.
Proof.
  intros net net2 n r z w w' E. destruct (options_ok n r z) as [[]|e] eqn:HO.
  2:{ rewrite C55_refused in E by congruence. discriminate. }
  destruct (C55_every_outcome net f32 ser n r z w w' (Ok tt) E) as (A & _ & _ & _ & C).
  assert (F : exists c, d_files w' (filename_fits n r z) = Some c).
  { destruct (d_files w (filename_fits n r z)) as [c|] eqn:F; [exists c; apply A; exact F|].
    destruct (C eq_refl eq_refl) as (_ & _ & s & k & c & _ & _ & _ & Q & _). eauto. }
  destruct F as (c & F). rewrite (C55_found net2 f32 ser n r z w' c HO F). eexists. split; [reflexivity|]. repeat split.
Qed.
End Again.
Print Assumptions C55_status_ignored.
Print Assumptions C55_interrupted.
Print Assumptions C55_leftover.
Print Assumptions C55_second_run.

(** ** what does not hold *)

(** a map of nside 2 (48 values) whose transfer breaks off after 12 values of
    kappa; write_map takes any array of 12 nside^2 values *)
Definition demo_file : list Z := ([0; 2; 48; 0; 0; 0] ++ map Z.of_nat (seq 100 48) ++ [0; 0] ++ repeat 1 48 ++ [0; 0] ++ repeat 2 48 ++ [0; 0] ++ repeat 3 48 ++ [0; 0])%list.
Definition healpix_ser (m : list Z) : option (list Z) * res unit :=
  if (length m =? 12)%nat || (length m =? 48)%nat then (Some m, Ok tt) else (None, Raise TypeError).
Definition empty_dir : dworld := mkDW (fun _ => None) [] [].
Definition good_net (u : string) : res response := Ok (mkResp 200 (Some (Ok 888)) demo_file None).
Definition bad_net (u : string) : res response := Ok (mkResp 200 (Some (Ok 888)) (firstn 18 demo_file) (Some (OpError 104))).

Example C55_case : exists w, download_script good_net (fun v => v) healpix_ser 12 0 16 empty_dir = (w, Ok tt) /\
  d_files w "takahasi_4096_000_zs16_kappa.fits" = Some (map Z.of_nat (seq 100 48)) /\
  d_files w "allskymap_nres12r000.zs16.mag.dat" = Some demo_file /\ d_files w "output.fits" = None /\
  d_urls w = ["http://cosmo.phys.hirosaki-u.ac.jp/takahasi/allsky_raytracing/sub1/nres12/allskymap_nres12r000.zs16.mag.dat"].
Proof. eexists. split; [vm_compute; reflexivity|]. repeat split. Qed.

(** after an interrupted transfer, running the script again with a working
    network need not give the map: a quarter of it is stored, without complaint *)
Theorem C55_resume_refuted : exists w0 w1 w2 fits, fits = filename_fits 12 0 16 /\ d_files w0 fits = None /\
  download_script bad_net (fun v => v) healpix_ser 12 0 16 w0 = (w1, Raise (OpError 104)) /\
  download_script good_net (fun v => v) healpix_ser 12 0 16 w1 = (w2, Ok tt) /\
  (exists w, download_script good_net (fun v => v) healpix_ser 12 0 16 w0 = (w, Ok tt) /\ d_files w fits = Some (map Z.of_nat (seq 100 48))) /\
  d_files w2 fits = Some (map Z.of_nat (seq 100 12)).
Proof.
  exists empty_dir. do 2 eexists. exists (filename_fits 12 0 16). split; [reflexivity|]. split; [reflexivity|].
  split; [vm_compute; reflexivity|]. split; [vm_compute; reflexivity|]. split; [|vm_compute; reflexivity].
  eexists. split; vm_compute; reflexivity.
Qed.
Print Assumptions C55_resume_refuted.

(** a server that answers 404 with a page: the page ends up in the binary file
    and stays there for all later runs *)
Theorem C55_error_page_refuted : exists w1, 
  download_script (fun _ => Ok (mkResp 404 (Some (Ok 20)) [1; 2; 3; 4; 5] None)) (fun v => v) healpix_ser 12 0 16 empty_dir = (w1, Raise IndexError) /\
  d_files w1 (filename_bin 12 0 16) = Some [1; 2; 3; 4; 5] /\
  exists w2, download_script good_net (fun v => v) healpix_ser 12 0 16 w1 = (w2, Raise IndexError) /\ d_urls w2 = d_urls w1.
Proof.
  eexists. split; [vm_compute; reflexivity|]. split; [vm_compute; reflexivity|]. eexists. split; [vm_compute; reflexivity|]. reflexivity.
Qed.
Print Assumptions C55_error_page_refuted.

(** a write that fails half-way blocks all later runs *)
Theorem C55_retry_refuted : exists ser w1, download_script good_net (fun v : Z => v) ser 12 0 16 empty_dir = (w1, Raise (OpError 28)) /\
  d_files w1 "output.fits" = Some [0] /\
  forall net w2 out, download_script net (fun v : Z => v) healpix_ser 12 0 16 w1 = (w2, out) -> out <> Ok tt.
Proof.
  exists (fun _ => (Some [0], Raise (OpError 28))). eexists. split; [vm_compute; reflexivity|]. split; [vm_compute; reflexivity|].
  intros net w2 out E. eapply (C55_leftover (fun v : Z => v) healpix_ser net 12 0 16 _ [0] w2 out); [| |exact E]; vm_compute; reflexivity.
Qed.
Print Assumptions C55_retry_refuted.
