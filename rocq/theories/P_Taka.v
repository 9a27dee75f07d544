(** C41: the reader of the blocked binary format. *)
From Coq Require Import List ZArith Lia Bool.
From Verif Require Import PyBase Takahashi.
Import ListNotations.
Open Scope Z_scope.

(** ** the file format, independently of the reader *)
(** [laid_out blocks vals w]: the words [w] are the values of one field, cut into
    chunks of the given sizes with two markers between chunks; whatever exceeds
    the sizes is one last chunk *)
Inductive laid_out {W} : list Z -> list W -> list W -> Prop :=
| lo_last : forall l ls vals, Z.of_nat (length vals) <= l -> laid_out (l :: ls) vals vals
| lo_more : forall l ls chunk m1 m2 vals w, Z.of_nat (length chunk) = l -> vals <> [] -> laid_out ls vals w ->
    laid_out (l :: ls) (chunk ++ vals) (chunk ++ [m1; m2] ++ w)
| lo_rest : forall vals, laid_out [] vals vals.

(** block sizes: consecutive differences of the table in the script *)
Definition block_sizes : list Z := [536870908; 536870910; 536870910; 536870910; 536870909; 536870910].
(** two's complement words of an integer, low word first *)
Definition words32 (n : Z) : list Z := [n mod 2 ^ 32].
Definition words64 (n : Z) : list Z := [n mod 2 ^ 32; (n / 2 ^ 32) mod 2 ^ 32].

(** ** lemmas *)
Lemma load_blocks_eq : load_blocks = block_sizes.
Proof. reflexivity. Qed.
Lemma fromfile_app : forall {W} (a b : list W) n, Z.of_nat (length a) = n -> fromfile n (a ++ b) = (a, b).
Proof.
  intros W a b n <-. unfold fromfile. destruct (Z.ltb_spec (Z.of_nat (length a)) 0); [lia|]. rewrite Nat2Z.id.
  rewrite firstn_app, skipn_app, Nat.sub_diag, firstn_all, skipn_all. cbn. rewrite app_nil_r. reflexivity.
Qed.
Lemma fromfile2 : forall {W} (s : list W), fromfile 2 s = (firstn 2 s, skipn 2 s).
Proof. reflexivity. Qed.

Lemma read_field_ok : forall {W} blocks (vals w : list W), laid_out blocks vals w -> blocks <> [] -> forall acc s,
  read_field blocks (Z.of_nat (length vals)) acc (w ++ s) = (acc ++ vals, skipn 2 s).
Proof.
  intros W blocks vals w H. induction H as [l ls vals Hl|l ls chunk m1 m2 vals w Hc NE H IH|vals]; intros NB acc s; [| |congruence].
  - cbn [read_field]. rewrite Z.min_r by lia. rewrite fromfile_app by lia. rewrite fromfile2, Z.sub_diag. reflexivity.
  - cbn [read_field]. rewrite app_length, Nat2Z.inj_add. assert (P : 0 < Z.of_nat (length vals)) by (destruct vals; [congruence|cbn; lia]).
    rewrite Z.min_l by lia. rewrite <- !app_assoc. rewrite fromfile_app by lia. rewrite fromfile2. cbn [app firstn skipn].
    replace (Z.of_nat (length chunk) + Z.of_nat (length vals) - l) with (Z.of_nat (length vals)) by lia.
    destruct (Z.eqb_spec (Z.of_nat (length vals)) 0); [lia|]. destruct ls as [|l' ls].
    + destruct (Z.ltb_spec 0 (Z.of_nat (length vals))); [|lia]. inversion H; subst. rewrite fromfile_app by lia. rewrite fromfile2.
      rewrite <- app_assoc. reflexivity.
    + rewrite IH by discriminate. rewrite <- app_assoc. reflexivity.
Qed.

Lemma int64_words : forall n, - 2 ^ 63 <= n < 2 ^ 63 -> int64 (n mod 2 ^ 32) ((n / 2 ^ 32) mod 2 ^ 32) = n.
Proof.
  intros n H. unfold int64.
  assert (A := Z.div_mod n (2 ^ 32) ltac:(lia)). assert (B := Z.mod_pos_bound n (2 ^ 32) ltac:(lia)).
  set (q := n / 2 ^ 32) in *. assert (C := Z.div_mod q (2 ^ 32) ltac:(lia)). assert (D := Z.mod_pos_bound q (2 ^ 32) ltac:(lia)).
  set (e := q / 2 ^ 32) in *. change (2 ^ 63) with 9223372036854775808 in *. change (2 ^ 64) with 18446744073709551616. change (2 ^ 32) with 4294967296 in *.
  destruct (Z.ltb_spec (n mod 4294967296 + 4294967296 * (q mod 4294967296)) 9223372036854775808); lia.
Qed.
Lemma int32_word : forall n, - 2 ^ 31 <= n < 2 ^ 31 -> int32 (n mod 2 ^ 32) = n.
Proof.
  intros n H. unfold int32. assert (A := Z.div_mod n (2 ^ 32) ltac:(lia)). assert (B := Z.mod_pos_bound n (2 ^ 32) ltac:(lia)).
  change (2 ^ 31) with 2147483648 in *. change (2 ^ 32) with 4294967296 in *. destruct (Z.ltb_spec (n mod 4294967296) 2147483648); lia.
Qed.

(** ** C41 *)

(** every list of values can be laid out, for any markers *)
Theorem C41_format_total : forall {W} (m1 m2 : W) blocks (vals : list W), Forall (fun l => 0 <= l) blocks -> exists w, laid_out blocks vals w.
Proof.
  intros W m1 m2. induction blocks as [|l ls IH]; intros vals F; [eexists; constructor|]. inversion F; subst.
  destruct (Z_le_gt_dec (Z.of_nat (length vals)) l); [eexists; constructor; lia|].
  destruct (IH (skipn (Z.to_nat l) vals) H2) as (w & Hw). exists (firstn (Z.to_nat l) vals ++ [m1; m2] ++ w).
  rewrite <- (firstn_skipn (Z.to_nat l) vals) at 1. apply (lo_more l ls _ m1 m2); [| |exact Hw].
  - rewrite firstn_length. lia.
  - intros E. apply (f_equal (@length W)) in E. rewrite skipn_length in E. cbn in E. lia.
Qed.
Print Assumptions C41_format_total.

(** one field, wherever it starts: all its values are returned, in order, and
    the position moves past its words and the two markers after them *)
Theorem C41_field : forall {W} (vals w s : list W), laid_out block_sizes vals w ->
  read_field load_blocks (Z.of_nat (length vals)) [] (w ++ s) = (vals, skipn 2 s).
Proof. intros W vals w s H. rewrite load_blocks_eq. rewrite (read_field_ok _ _ _ H) by discriminate. reflexivity. Qed.
Print Assumptions C41_field.

(** a whole file *)
Theorem C41_file : forall nside npix a b c kappa gamma1 gamma2 omega wk w1 w2 wo p q r s t u tail,
  - 2 ^ 31 <= nside < 2 ^ 31 -> 0 <= npix < 2 ^ 63 ->
  Z.of_nat (length kappa) = npix -> Z.of_nat (length gamma1) = npix -> Z.of_nat (length gamma2) = npix -> Z.of_nat (length omega) = npix ->
  laid_out block_sizes kappa wk -> laid_out block_sizes gamma1 w1 -> laid_out block_sizes gamma2 w2 -> laid_out block_sizes omega wo ->
  read_contents ([a] ++ words32 nside ++ words64 npix ++ [b; c] ++ wk ++ [p; q] ++ w1 ++ [r; s] ++ w2 ++ [t; u] ++ wo ++ tail) =
  Ok (mkContents nside npix kappa gamma1 gamma2 omega (skipn 2 tail)).
Proof.
  intros nside npix a b c kappa gamma1 gamma2 omega wk w1 w2 wo p q r s t u tail Hn Hp L1 L2 L3 L4 K1 K2 K3 K4.
  unfold read_contents, words32, words64. cbn [app read1 rbind read_int64]. rewrite int64_words by lia. rewrite int32_word by lia.
  rewrite <- L1 at 1. rewrite (C41_field _ _ _ K1). cbn [skipn]. rewrite <- L2 at 1. rewrite (C41_field _ _ _ K2). cbn [skipn].
  rewrite <- L3 at 1. rewrite (C41_field _ _ _ K3). cbn [skipn]. rewrite <- L4 at 1. rewrite (C41_field _ _ _ K4). reflexivity.
Qed.
Print Assumptions C41_file.

(** what is written: the convergence map only *)
Theorem C41_output : forall {V F} (f32 : Z -> V) (write_map : list V -> res F) file,
  (forall s c, file = Ok s -> read_contents s = Ok c -> binary_to_fits f32 write_map file = write_map (map f32 (c_kappa c))) /\
  (forall s, file = Ok s -> (length s < 6)%nat -> binary_to_fits f32 write_map file = Raise IndexError) /\
  (forall e, file = Raise e -> binary_to_fits f32 write_map file = Raise e).
Proof.
  intros V F f32 wm file. unfold binary_to_fits. split; [|split].
  - intros s c -> E. cbn [rbind]. rewrite E. reflexivity.
  - intros s -> H. cbn [rbind]. destruct s as [|? [|? [|? [|? [|? [|]]]]]]; try reflexivity. cbn in H. lia.
  - intros e ->. reflexivity.
Qed.
Print Assumptions C41_output.

(** truncation is never noticed: with the six header words present there is no
    exception, and a field that is cut short comes back shorter than npix *)
Theorem C41_truncation_unnoticed : forall a nside lo hi b c s, exists k, read_contents (a :: nside :: lo :: hi :: b :: c :: s) = Ok k /\
  c_npix k = int64 lo hi /\
  (0 <= int64 lo hi <= 536870908 -> Z.of_nat (length s) < int64 lo hi -> c_kappa k = s /\ c_gamma1 k = [] /\ c_gamma2 k = [] /\ c_omega k = []) /\
  (int64 lo hi < 0 -> c_kappa k = s /\ c_gamma1 k = [] /\ c_gamma2 k = [] /\ c_omega k = [] /\ c_rest k = []).
Proof.
  intros a nside lo hi b c s. unfold read_contents. cbn [read1 rbind read_int64]. set (n := int64 lo hi).
  assert (Sh : 0 <= n <= 536870908 -> forall t : list Z, Z.of_nat (length t) < n -> read_field load_blocks n [] t = (t, [])).
  { intros Hn t Ht. rewrite load_blocks_eq. unfold block_sizes. cbn [read_field]. rewrite Z.min_r by lia. unfold fromfile at 1.
    destruct (Z.ltb_spec n 0); [lia|]. rewrite firstn_all2, skipn_all2 by lia. rewrite fromfile2, Z.sub_diag. reflexivity. }
  assert (Ng : n < 0 -> forall t : list Z, read_field load_blocks n [] t = (t, [])).
  { intros Hn t. rewrite load_blocks_eq. unfold block_sizes. cbn [read_field]. rewrite Z.min_r by lia. unfold fromfile at 1.
    destruct (Z.ltb_spec n 0); [|lia]. rewrite fromfile2, Z.sub_diag. reflexivity. }
  destruct (read_field load_blocks n [] s) as [k1 s1] eqn:E1. destruct (read_field load_blocks n [] s1) as [k2 s2] eqn:E2.
  destruct (read_field load_blocks n [] s2) as [k3 s3] eqn:E3. destruct (read_field load_blocks n [] s3) as [k4 s4] eqn:E4.
  eexists. split; [reflexivity|]. cbn [c_npix c_kappa c_gamma1 c_gamma2 c_omega c_rest]. split; [reflexivity|]. split.
  - intros Hn Hs. rewrite Sh in E1 by auto. injection E1 as <- <-. rewrite Sh in E2 by (cbn; lia). injection E2 as <- <-.
    rewrite Sh in E3 by (cbn; lia). injection E3 as <- <-. rewrite Sh in E4 by (cbn; lia). injection E4 as <- <-. auto.
  - intros Hn. rewrite Ng in E1 by auto. injection E1 as <- <-. rewrite Ng in E2 by auto. injection E2 as <- <-.
    rewrite Ng in E3 by auto. injection E3 as <- <-. rewrite Ng in E4 by auto. injection E4 as <- <-. auto.
Qed.
Print Assumptions C41_truncation_unnoticed.

(** blocks of sizes 2 and 1: five values in three chunks, followed by two
    markers and one further word *)
Example C41_case : read_field [2; 1] 5 [] [10; 11; -1; -1; 12; -1; -1; 13; 14; -1; -1; 99] = ([10; 11; 12; 13; 14], [99]) /\
  laid_out [2; 1] [10; 11; 12; 13; 14] [10; 11; -1; -1; 12; -1; -1; 13; 14].
Proof.
  split; [reflexivity|]. apply (lo_more 2 [1] [10; 11] (-1) (-1) [12; 13; 14]); [reflexivity|discriminate|].
  apply (lo_more 1 [] [12] (-1) (-1) [13; 14]); [reflexivity|discriminate|]. constructor.
Qed.
(** a file with npix = 1 whose last field lacks the second marker *)
Example C41_case_file : read_contents [0; 1; 1; 0; 0; 0; 7; -1; -1; 8; -1; -1; 9; -1; -1; 10; -1] = Ok (mkContents 1 1 [7] [8] [9] [10] []).
Proof. vm_compute. reflexivity. Qed.

(** ** C46: the options of the download script *)
Theorem C46_options : forall nres realisation redshift,
  options_ok nres realisation redshift = Ok tt <->
  (nres = 12 \/ nres = 13) /\ 0 <= realisation <= 107 /\ 1 <= redshift <= 66.
Proof.
  intros n r z. unfold options_ok, assert.
  destruct (Z.eqb_spec n 12), (Z.eqb_spec n 13), (Z.eqb_spec n 14), (Z.eqb_spec n 0), (Z.leb_spec 0 r), (Z.leb_spec r 107), (Z.leb_spec 1 z), (Z.leb_spec z 66);
  cbn [orb andb rbind]; split; intros Q; try discriminate; try lia; try reflexivity.
Qed.
Print Assumptions C46_options.
(** anything else is an AssertionError *)
Theorem C46_rejects : forall nres realisation redshift,
  options_ok nres realisation redshift = Ok tt \/ options_ok nres realisation redshift = Raise AssertionError.
Proof.
  intros n r z. unfold options_ok, assert.
  destruct ((n =? 12) || (n =? 13) || (n =? 14)); cbn [rbind]; auto. destruct ((n =? 12) || (n =? 13)).
  - destruct ((0 <=? r) && (r <=? 107)); cbn [rbind]; auto. destruct ((1 <=? z) && (z <=? 66)); auto.
  - destruct (n =? 0); cbn [rbind]; auto. destruct ((1 <=? z) && (z <=? 66)); auto.
Qed.
Print Assumptions C46_rejects.
(** the documented choice nres = 14, realisation 0 is always rejected *)
Theorem C46_nres14_refuted : exists nres realisation, nres = 14 /\ realisation = 0 /\
  forall redshift, options_ok nres realisation redshift = Raise AssertionError.
Proof. exists 14, 0. repeat split. Qed.
Print Assumptions C46_nres14_refuted.
Example C46_case : options_ok 12 0 16 = Ok tt /\ options_ok 13 108 16 = Raise AssertionError.
Proof. split; reflexivity. Qed.
