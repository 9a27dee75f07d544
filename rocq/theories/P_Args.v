(** C70: which command lines the scripts of /repo/experiments accept, and what
    they make of them. *)
From Coq Require Import List ZArith Lia Bool Reals Lra Ascii String.
From Verif Require Import PyBase Prior ExpRun ExpPlot Args ArgsSpec ArgsProof ArgsRun.
Import ListNotations.
Open Scope string_scope.
Open Scope list_scope.
Notation length := List.length.

(** *** the parsers *)
Lemma no_eq : forall s, partition_eq s = None -> ~ contains_eq s.
Proof. intros s H. assert (P := partition_spec s). rewrite H in P. exact P. Qed.
Ltac options := repeat match goal with H : _ \/ _ |- _ => destruct H as [H | H] | H : False |- _ => destruct H | H : In _ _ |- _ => progress cbn in H end; subst; cbn in *.
Ltac usual_tac :=
  split; [cbn; repeat (apply NoDup_cons; [cbn; intuition discriminate|]); apply NoDup_nil|];
  split; [cbn; repeat (apply NoDup_cons; [cbn; intuition discriminate|]); apply NoDup_nil|];
  split; [intros a H E; cbn in H; options; options; try discriminate E; reflexivity|];
  split; [intros o a (H & K); cbn in H; options; options;
          (split; [apply no_eq; reflexivity|]); (split; [split; [intros H; try discriminate H; auto|intros [H | H]; try discriminate H; reflexivity]|]); try (left; reflexivity); right; eexists; eexists; reflexivity|];
  split; exists help; (split; [cbn; auto|cbn; auto]).
Theorem C70_usual : forall (F : Type) (micro : F),
  usual (topo_main micro) /\ usual (phase_main micro) /\ usual (lens_main micro) /\
  usual (@topo_plot_parser F) /\ usual (@phase_plot_parser F) /\ usual (@lens_plot_parser F).
Proof.
  intros F micro. split; [usual_tac|]. split; [usual_tac|]. split; [usual_tac|]. split; [usual_tac|]. split; usual_tac.
Qed.
Print Assumptions C70_usual.

(** the tables: option string, type, attribute and default; the positionals *)
Definition table {F : Type} (P : @parser F) : list (string * kind * string * value) -> list (string * value) -> Prop :=
  fun opts pos =>
    (forall o k d v, In (o, k, d, v) opts <-> exists a, option_of P o a /\ a_kind a = k /\ a_dest a = d /\ a_default a = v) /\
    (forall ps, the_positionals P ps -> map (fun a => (a_dest a, a_default a)) ps = pos) /\
    (forall a, In a P -> a_kind a = KHelp -> a_default a = ANone).
Definition common {F : Type} (micro : F) (L : Z) : list (string * kind * string * @value F) :=
  [("-h", KHelp, "help", ANone); ("--help", KHelp, "help", ANone);
   ("--outdir", KStr, "outdir", AStr "."); ("--jobid", KStr, "jobid", AStr "0"); ("--algo", KStr, "algo", AStr "myula");
   ("--setting", KStr, "setting", AStr "synthesis"); ("--delta", KFloat, "delta", AFloat micro); ("--mu", KFloat, "mu", AInt 1);
   ("--L", KInt, "L", AInt L)].
Definition plot_common {F : Type} (burn : Z) : list (string * kind * string * @value F) :=
  [("-h", KHelp, "help", ANone); ("--help", KHelp, "help", ANone);
   ("--suffix", KStr, "suffix", AStr ""); ("--burn", KInt, "burn", AInt burn); ("--save_npy", KTrue, "save_npy", ABool false)].
Ltac table_tac :=
  split; [intros o k d v; split;
          [intros H; cbn in H; options; options; repeat match goal with H : (_, _, _, _) = _ |- _ => injection H as <- <- <- <- end;
           match goal with |- exists a, option_of ?P ?o a /\ _ => let r := eval cbv in (find_option P o) in match r with Some ?a => exists a end end;
           (split; [split; [cbn; tauto|cbn; tauto]|split; [reflexivity|split; reflexivity]])
          |intros (a & (H & K) & <- & <- & <-); cbn in H; options; options; tauto]|];
  split; [intros ps H; apply the_positionals_iff in H; subst ps; reflexivity|];
  intros a H K; cbn in H; options; options; try discriminate K; reflexivity.
Theorem C70_tables : forall (F : Type) (micro : F),
  table (topo_main micro)
    (common micro 32 ++ [("--infile", KStr, "infile", AStr "ETOPO1_Ice_hpx_256.fits"); ("--makenoise", KTrue, "makenoise", ABool false);
                         ("--sigma", KFloat, "sigma", AInt 1); ("--scaleafrica", KInt, "scaleafrica", AInt 0)]) [] /\
  table (phase_main micro)
    (common micro 28 ++ [("--eta", KFloat, "eta", AInt 1); ("--nsim", KTrue, "nsim", ABool false)])
    [("infile", AStr "synthetic_GDM40_0S254_L28.txt"); ("pathsfile", AStr "0S254L28.npz")] /\
  table (lens_main micro) (common micro 512) [("infile", ANone)] /\
  table (@topo_plot_parser F) (plot_common 0) [("datafile", ANone); ("directory", ANone)] /\
  table (@phase_plot_parser F) (plot_common 1000) [("datafile", ANone); ("directory", ANone)] /\
  table (@lens_plot_parser F) (plot_common 1000 ++ [("--no-mask", KTrue, "no_mask", ABool false)]) [("datafile", ANone); ("directory", ANone)].
Proof.
  intros F micro. split; [table_tac|]. split; [table_tac|]. split; [table_tac|]. split; [table_tac|]. split; table_tac.
Qed.
Print Assumptions C70_tables.

(** *** accepted lines *)
Section C70.
Context {F : Type}.
Variables (to_float : string -> option F) (to_int : string -> option Z).
Notation parse := (parse_args to_float to_int).

(** exactly the lines with a reading are accepted, with the meaning of the
    reading as result *)
Theorem C70_accepted : forall P, usual P -> forall argv ns,
  parse P argv = Parsed ns <-> exists l vals, line P argv l vals /\ means to_float to_int P l vals ns.
Proof. intros P U argv ns. apply accepted. exact U. Qed.

Theorem C70_help : forall P, usual P -> forall argv, parse P argv = Exit0 <-> shows_help to_float to_int P argv.
Proof. intros P U argv. apply helped. exact U. Qed.

(** all others end with status 2 *)
Theorem C70_otherwise : forall P, usual P -> forall argv,
  (~ exists l vals ns, line P argv l vals /\ means to_float to_int P l vals ns) -> ~ shows_help to_float to_int P argv -> parse P argv = Exit2.
Proof.
  intros P U argv NP NH. destruct (parse P argv) as [ns| | |] eqn:E; [| |apply helped in E; [contradiction|exact U]|].
  - exfalso. apply NP. apply accepted in E; [|exact U]. destruct E as (l & vals & H). exists l, vals, ns. exact H.
  - reflexivity.
  - exfalso. apply (total to_float to_int P argv E).
Qed.

(** readings and meanings are unique *)
Theorem C70_meaning_unique : forall P, usual P -> forall l vals ns ns', means to_float to_int P l vals ns -> means to_float to_int P l vals ns' -> ns = ns'.
Proof. intros P U l vals ns ns'. apply means_unique. exact U. Qed.

(** positionals may stand anywhere between the options *)
Theorem C70_order : forall P, usual P -> forall argv argv' l l' vals, line P argv l vals -> line P argv' l' vals -> same_options l l' -> parse P argv = parse P argv'.
Proof. intros P U argv argv' l l' vals. apply order_free. exact U. Qed.

(** the attribute of an option with value: the last mention, else the default *)
Theorem C70_option : forall P, usual P -> forall argv l vals ns o a s,
  line P argv l vals -> parse P argv = Parsed ns -> means to_float to_int P l vals ns ->
  option_of P o a -> a_strings a = [o] -> with_value (a_kind a) -> last_of l o s ->
  match s with Some x => exists v, value_as to_float to_int (a_kind a) x v /\ In (a_dest a, v) ns | None => In (a_dest a, a_default a) ns end.
Proof.
  intros P U argv l vals ns o a s L _ M A E K S. assert (N := means_nodup to_float to_int P U l vals ns M).
  assert (G := get_option to_float to_int P U argv l vals ns o a s L M A E K S). destruct s as [x|].
  - destruct G as (v & V & G). exists v. split; [exact V|]. apply get_in; assumption.
  - apply get_in; assumption.
Qed.
Theorem C70_flag : forall P, usual P -> forall argv l vals ns o a,
  line P argv l vals -> means to_float to_int P l vals ns -> option_of P o a -> a_strings a = [o] -> a_kind a = KTrue ->
  (In (IFlag o) l -> In (a_dest a, ABool true) ns) /\ (~ In (IFlag o) l -> In (a_dest a, a_default a) ns).
Proof.
  intros P U argv l vals ns o a L M A E K. assert (N := means_nodup to_float to_int P U l vals ns M).
  destruct (get_flag to_float to_int P U argv l vals ns o a L M A E K) as (G1 & G2). split; intros H; apply get_in; auto.
Qed.

(** a word that looks like an unknown option is an error, also as value *)
Theorem C70_unknown : forall P, usual P -> forall a w r ns, ~ In "--" a -> unknown P w -> parse P (a ++ w :: r) <> Parsed ns.
Proof. intros P U a w r ns. apply unknown_word. exact U. Qed.
End C70.
Print Assumptions C70_accepted.
Print Assumptions C70_help.
Print Assumptions C70_otherwise.
Print Assumptions C70_meaning_unique.
Print Assumptions C70_order.
Print Assumptions C70_option.
Print Assumptions C70_flag.
Print Assumptions C70_unknown.

(** *** the scripts *)
Section Scripts.
Variables (to_float : string -> option R) (to_int : string -> option Z).
Notation parse := (parse_args to_float to_int).
Definition micro : R := (1 / 1000000)%R.
Definition mains : list (@parser R) := [topo_main micro; phase_main micro; lens_main micro].

Definition str_or (d : string) (s : option string) : string := match s with Some x => x | None => d end.
Definition num_or (d : R) (s : option string) (x : R) : Prop := match s with Some w => to_float w = Some x | None => x = d end.
Definition int_or (d : Z) (s : option string) (z : Z) : Prop := match s with Some w => to_int w = Some z | None => z = d end.
(** the default of --L *)
Definition L_default (P : @parser R) (z : Z) : Prop :=
  (P = topo_main micro /\ z = 32%Z) \/ (P = phase_main micro /\ z = 28%Z) \/ (P = lens_main micro /\ z = 512%Z).

Lemma mains_usual : forall P, In P mains -> usual P.
Proof. intros P H. destruct (C70_usual R micro) as (A & B & C & _). destruct H as [<- | [<- | [<- | []]]]; assumption. Qed.

Lemma main_option : forall P argv l vals ns name k d s, In P mains -> line P argv l vals -> means to_float to_int P l vals ns ->
  In (opt name k d) P -> with_value k -> last_of l (String.append "--" name) s ->
  match s with Some x => exists v, value_as to_float to_int k x v /\ get_attr ns name = Some v | None => get_attr ns name = Some d end.
Proof.
  intros P argv l vals ns name k d s HP L M I K S.
  assert (A : option_of P (String.append "--" name) (opt name k d)) by (split; [exact I|left; reflexivity]).
  exact (get_option to_float to_int P (mains_usual P HP) argv l vals ns _ _ s L M A eq_refl K S).
Qed.
Lemma shared_in : forall P a, In P mains -> In a (shared micro) -> In a P.
Proof. intros P a H I. destruct H as [<- | [<- | [<- | []]]]; unfold topo_main, phase_main, lens_main; apply in_or_app; right; apply in_or_app; left; exact I. Qed.
Ltac find_shared := apply shared_in; [assumption|cbn; auto 10].

(** what run_experiment gets *)
Theorem C70_run_arguments : forall P argv l vals ns sa ss so sj sd sm sL L0,
  In P mains -> L_default P L0 -> line P argv l vals -> means to_float to_int P l vals ns ->
  last_of l "--algo" sa -> last_of l "--setting" ss -> last_of l "--outdir" so -> last_of l "--jobid" sj ->
  last_of l "--delta" sd -> last_of l "--mu" sm -> last_of l "--L" sL ->
  exists d m z, num_or micro sd d /\ num_or 1 sm m /\ int_or L0 sL z /\
    ((0 <= z)%Z -> cli_of ns = Some (mkCli (str_or "myula" sa) (str_or "synthesis" ss) (str_or "." so) (str_or "0" sj) d m (Z.to_nat z))).
Proof.
  intros P argv l vals ns sa ss so sj sd sm sL L0 HP HL LI M Ha Hs Ho Hj Hd Hm HLs.
  assert (STR : forall name d s, In (opt name KStr (AStr d)) P -> last_of l (String.append "--" name) s -> get_attr ns name = Some (AStr (str_or d s))).
  { intros name d s I S. assert (G := main_option P argv l vals ns name KStr _ s HP LI M I (or_introl eq_refl) S). destruct s as [x|]; [|exact G]. destruct G as (v & -> & G). exact G. }
  assert (NUM : forall name (v0 : value) d0 s, as_num v0 = Some d0 -> In (opt name KFloat v0) P -> last_of l (String.append "--" name) s -> exists v x, get_attr ns name = Some v /\ as_num v = Some x /\ num_or d0 s x).
  { intros name v0 d0 s E I S. assert (G := main_option P argv l vals ns name KFloat _ s HP LI M I (or_intror (or_intror eq_refl)) S). destruct s as [x|]; [|exists v0, d0; cbn; auto].
    destruct G as (v & (y & Ey & ->) & G). exists (AFloat y), y. cbn. auto. }
  destruct (NUM "delta" (AFloat micro) micro sd eq_refl ltac:(find_shared) Hd) as (vd & d & Gd & Ed & Nd).
  destruct (NUM "mu" (AInt 1) 1%R sm eq_refl ltac:(find_shared) Hm) as (vm & m & Gm & Em & Nm).
  assert (IL : In (opt "L" KInt (AInt L0)) P).
  { destruct HL as [(-> & ->) | [(-> & ->) | (-> & ->)]]; cbn; auto 15. }
  assert (GL := main_option P argv l vals ns "L" KInt _ sL HP LI M IL (or_intror (or_introl eq_refl)) HLs).
  assert (exists z, get_attr ns "L" = Some (AInt z) /\ int_or L0 sL z) as (z & Gz & Nz).
  { destruct sL as [x|]; [|exists L0; cbn; auto]. destruct GL as (v & (z & Ez & ->) & G). exists z. cbn. auto. }
  exists d, m, z. split; [exact Nd|]. split; [exact Nm|]. split; [exact Nz|]. intros Z0. unfold cli_of, attr.
  rewrite (STR "algo" "myula" sa ltac:(find_shared) Ha), (STR "setting" "synthesis" ss ltac:(find_shared) Hs), (STR "outdir" "." so ltac:(find_shared) Ho), (STR "jobid" "0" sj ltac:(find_shared) Hj), Gd, Gm, Gz. cbn [as_str as_nat].
  rewrite Ed, Em. rewrite (proj2 (Z.leb_le _ _) Z0). reflexivity.
Qed.

Lemma gen_option : forall P, usual P -> forall argv l vals ns name k d s, line P argv l vals -> means to_float to_int P l vals ns ->
  In (opt name k d) P -> with_value k -> last_of l (String.append "--" name) s ->
  match s with Some x => exists v, value_as to_float to_int k x v /\ get_attr ns name = Some v | None => get_attr ns name = Some d end.
Proof.
  intros P U argv l vals ns name k d s L M I K S.
  assert (A : option_of P (String.append "--" name) (opt name k d)) by (split; [exact I|left; reflexivity]).
  exact (get_option to_float to_int P U argv l vals ns _ _ s L M A eq_refl K S).
Qed.
Lemma gen_flag : forall P, usual P -> forall argv l vals ns d o, line P argv l vals -> means to_float to_int P l vals ns ->
  In (mkAction d [o] KTrue (ABool false)) P ->
  exists b, get_attr ns d = Some (ABool b) /\ (b = true <-> In (IFlag o) l).
Proof.
  intros P U argv l vals ns d o L M I.
  assert (A : option_of P o (mkAction d [o] KTrue (ABool false))) by (split; [exact I|left; reflexivity]).
  destruct (get_flag to_float to_int P U argv l vals ns o _ L M A eq_refl eq_refl) as (G1 & G2).
  assert (D : In (IFlag o) l \/ ~ In (IFlag o) l).
  { destruct (in_dec (fun x y : item => ltac:(decide equality; apply string_dec) : {x = y} + {x <> y}) (IFlag o) l); auto. }
  destruct D as [D | D].
  - exists true. split; [exact (G1 D)|]. split; auto.
  - exists false. split; [exact (G2 D)|]. split; [discriminate|contradiction].
Qed.
Definition flagged (l : list item) (o : string) (b : bool) : Prop := b = true <-> In (IFlag o) l.

Theorem C70_topography : forall argv l vals ns draw ss sz si, line (topo_main micro) argv l vals -> means to_float to_int (topo_main micro) l vals ns ->
  last_of l "--sigma" ss -> last_of l "--scaleafrica" sz -> last_of l "--infile" si ->
  exists noisy sigma z, flagged l "--makenoise" noisy /\ num_or 1 ss sigma /\ int_or 0 sz z /\
    topo_of draw ns = Some (Topo (if noisy then Some draw else None) sigma z) /\
    attr as_str ns "infile" = Some (str_or "ETOPO1_Ice_hpx_256.fits" si) /\ vals = [].
Proof.
  intros argv l vals ns draw ss sz si L M Hs Hz Hi. destruct (C70_usual R micro) as (U & _).
  destruct (gen_flag _ U argv l vals ns "makenoise" "--makenoise" L M ltac:(cbn; auto 15)) as (b & Gb & Hb).
  assert (Gs := gen_option _ U argv l vals ns "sigma" KFloat (AInt 1) ss L M ltac:(cbn; auto 15) (or_intror (or_intror eq_refl)) Hs).
  assert (Gz := gen_option _ U argv l vals ns "scaleafrica" KInt (AInt 0) sz L M ltac:(cbn; auto 15) (or_intror (or_introl eq_refl)) Hz).
  assert (Gi := gen_option _ U argv l vals ns "infile" KStr (AStr "ETOPO1_Ice_hpx_256.fits") si L M ltac:(cbn; auto 15) (or_introl eq_refl) Hi).
  assert (exists v x, get_attr ns "sigma" = Some v /\ as_num v = Some x /\ num_or 1 ss x) as (v & x & G1 & G2 & G3).
  { destruct ss as [w|]; [destruct Gs as (v & (x & E & ->) & G); exists (AFloat x), x; cbn; auto|exists (AInt 1), 1%R; cbn; auto]. }
  assert (exists z, get_attr ns "scaleafrica" = Some (AInt z) /\ int_or 0 sz z) as (z & G4 & G5).
  { destruct sz as [w|]; [destruct Gz as (u & (z & E & ->) & G); exists z; cbn; auto|exists 0%Z; cbn; auto]. }
  exists b, x, z. split; [exact Hb|]. split; [exact G3|]. split; [exact G5|]. split; [|split].
  - unfold topo_of, attr. rewrite Gb, G1, G4. cbn [as_bool as_int]. rewrite G2. reflexivity.
  - unfold attr. destruct si as [w|]; [destruct Gi as (u & -> & G); rewrite G; reflexivity|rewrite Gi; reflexivity].
  - assert (E := vals_length to_float to_int _ l vals ns M). cbn in E. destruct vals; [reflexivity|discriminate].
Qed.

(** without --eta the exponent is the integer 1, with --eta a float *)
Theorem C70_phase_velocity : forall argv l vals ns se, line (phase_main micro) argv l vals -> means to_float to_int (phase_main micro) l vals ns -> last_of l "--eta" se ->
  exists nsim eta v1 v2, flagged l "--nsim" nsim /\ match se with Some w => exists x, to_float w = Some x /\ eta = EFloat x | None => eta = EInt 1 end /\
    phase_of ns = Some (Phase nsim eta) /\ vals = [v1; v2] /\ In ("infile", v1) ns /\ In ("pathsfile", v2) ns.
Proof.
  intros argv l vals ns se L M He. destruct (C70_usual R micro) as (_ & U & _). assert (N := means_nodup to_float to_int _ U l vals ns M).
  destruct (gen_flag _ U argv l vals ns "nsim" "--nsim" L M ltac:(cbn; auto 15)) as (b & Gb & Hb).
  assert (Ge := gen_option _ U argv l vals ns "eta" KFloat (AInt 1) se L M ltac:(cbn; auto 15) (or_intror (or_intror eq_refl)) He).
  assert (E := vals_length to_float to_int _ l vals ns M). cbn in E. destruct vals as [|v1 [|v2 [|]]]; try discriminate.
  assert (G1 := get_positional to_float to_int _ U l [v1; v2] ns 0 _ v1 M eq_refl eq_refl). assert (G2 := get_positional to_float to_int _ U l [v1; v2] ns 1 _ v2 M eq_refl eq_refl).
  apply get_in in G1, G2; auto.
  assert (exists eta, attr as_expo ns "eta" = Some eta /\ match se with Some w => exists x, to_float w = Some x /\ eta = EFloat x | None => eta = EInt 1 end) as (eta & G3 & G4).
  { unfold attr. destruct se as [w|]; [destruct Ge as (v & (x & Ex & ->) & G); exists (EFloat x); rewrite G; cbn; eauto|exists (EInt 1); rewrite Ge; auto]. }
  exists b, eta, v1, v2. split; [exact Hb|]. split; [exact G4|]. split; [|split; [reflexivity|split; assumption]].
  unfold phase_of. rewrite G3. unfold attr. rewrite Gb. reflexivity.
Qed.
Theorem C70_lensing : forall argv l vals ns, line (lens_main micro) argv l vals -> means to_float to_int (lens_main micro) l vals ns ->
  exists v, vals = [v] /\ In ("infile", v) ns.
Proof.
  intros argv l vals ns L M. destruct (C70_usual R micro) as (_ & _ & U & _). assert (N := means_nodup to_float to_int _ U l vals ns M).
  assert (E := vals_length to_float to_int _ l vals ns M). cbn in E. destruct vals as [|v1 [|]]; try discriminate.
  assert (G1 := get_positional to_float to_int _ U l [v1] ns 0 _ v1 M eq_refl eq_refl). apply get_in in G1; eauto.
Qed.

(** the three plot scripts; a directory that is the word -- after another -- is
    no string *)
Theorem C70_plots : forall P burn0 masked argv l vals ns sf sb,
  (P = topo_plot_parser /\ burn0 = 0%Z /\ masked = false) \/ (P = phase_plot_parser /\ burn0 = 1000%Z /\ masked = false) \/ (P = lens_plot_parser /\ burn0 = 1000%Z /\ masked = true) ->
  line P argv l vals -> means to_float to_int P l vals ns -> last_of l "--suffix" sf -> last_of l "--burn" sb ->
  exists v1 v2 burn npy no_mask, vals = [v1; v2] /\ int_or burn0 sb burn /\ flagged l "--save_npy" npy /\
    flagged l "--no-mask" no_mask /\ In ("datafile", v1) ns /\
    plot_args_of masked ns = match v2 with AStr d => Some (mkPlotArgs d (str_or "" sf) burn npy no_mask) | _ => None end.
Proof.
  intros P burn0 masked argv l vals ns sf sb HP L M Hf Hb. destruct (C70_usual R micro) as (_ & _ & _ & U1 & U2 & U3).
  assert (U : usual P) by (destruct HP as [(-> & _) | [(-> & _) | (-> & _)]]; assumption). assert (N := means_nodup to_float to_int _ U l vals ns M).
  assert (E := vals_length to_float to_int _ l vals ns M).
  assert (PS : positionals P = [posl "datafile" ANone; posl "directory" ANone]) by (destruct HP as [(-> & _) | [(-> & _) | (-> & _)]]; reflexivity).
  rewrite PS in E. cbn in E. destruct vals as [|v1 [|v2 [|]]]; try discriminate.
  assert (G1 := get_positional to_float to_int _ U l [v1; v2] ns 0 (posl "datafile" ANone) v1 M ltac:(rewrite PS; reflexivity) eq_refl).
  assert (G2 := get_positional to_float to_int _ U l [v1; v2] ns 1 (posl "directory" ANone) v2 M ltac:(rewrite PS; reflexivity) eq_refl). cbn [a_dest posl] in G1, G2.
  assert (I1 : In (opt "suffix" KStr (AStr "")) P) by (destruct HP as [(-> & _) | [(-> & _) | (-> & _)]]; cbn; auto 15).
  assert (I2 : In (opt "burn" KInt (AInt burn0)) P) by (destruct HP as [(-> & -> & _) | [(-> & -> & _) | (-> & -> & _)]]; cbn; auto 15).
  assert (I3 : In (mkAction "save_npy" ["--save_npy"] KTrue (ABool false)) P) by (destruct HP as [(-> & _) | [(-> & _) | (-> & _)]]; cbn; auto 15).
  assert (Gf := gen_option _ U argv l _ ns "suffix" KStr (AStr "") sf L M I1 (or_introl eq_refl) Hf).
  assert (Gb := gen_option _ U argv l _ ns "burn" KInt (AInt burn0) sb L M I2 (or_intror (or_introl eq_refl)) Hb).
  destruct (gen_flag _ U argv l _ ns "save_npy" "--save_npy" L M I3) as (npy & Gn & Hn).
  assert (Sf : get_attr ns "suffix" = Some (AStr (str_or "" sf))) by (destruct sf as [w|]; [destruct Gf as (v & -> & G); exact G|exact Gf]).
  assert (exists z, get_attr ns "burn" = Some (AInt z) /\ int_or burn0 sb z) as (burn & Sb & Nb).
  { destruct sb as [w|]; [destruct Gb as (v & (z & Ez & ->) & G); exists z; cbn; auto|exists burn0; cbn; auto]. }
  assert (exists m, flagged l "--no-mask" m /\ (if masked then attr as_bool ns "no_mask" else Some false) = Some m) as (m & Fm & Gm).
  { destruct HP as [(-> & _ & ->) | [(-> & _ & ->) | (-> & _ & ->)]].
    - exists false. split; [|reflexivity]. split; [discriminate|]. intros J. exfalso. assert (W := line_items _ U argv l _ L). rewrite Forall_forall in W. destruct (W _ J) as (a & A & _). exact (find_option_spec (@topo_plot_parser R) "--no-mask" (ex_intro _ a A)).
    - exists false. split; [|reflexivity]. split; [discriminate|]. intros J. exfalso. assert (W := line_items _ U argv l _ L). rewrite Forall_forall in W. destruct (W _ J) as (a & A & _). exact (find_option_spec (@phase_plot_parser R) "--no-mask" (ex_intro _ a A)).
    - destruct (gen_flag _ U argv l _ ns "no_mask" "--no-mask" L M ltac:(cbn; auto 15)) as (m & G & H). exists m. split; [exact H|]. unfold attr. rewrite G. reflexivity. }
  exists v1, v2, burn, npy, m. split; [reflexivity|]. split; [exact Nb|]. split; [exact Hn|]. split; [exact Fm|]. split; [apply get_in; assumption|].
  unfold plot_args_of. rewrite Gm. unfold attr. rewrite G2, Sf, Sb, Gn. destruct v2; reflexivity.
Qed.

(** the defaults of the positionals of phasevel/main.py are never used *)
Theorem C70_positional_default_refuted : exists P : @parser R, P = phase_main micro /\
  (exists a, In a P /\ a_strings a = [] /\ a_default a = AStr "synthetic_GDM40_0S254_L28.txt") /\ parse P [] = Exit2 /\ forall w, parse P [w] <> Exit0 -> parse P [w] = Exit2.
Proof.
  exists (phase_main micro). split; [reflexivity|]. destruct (C70_usual R micro) as (_ & U & _). split; [|split; [reflexivity|]].
  - exists (posl "infile" (AStr "synthetic_GDM40_0S254_L28.txt")). cbn. auto.
  - intros w H. destruct (parse (phase_main micro) [w]) as [ns| | |] eqn:E; auto; [|congruence|exfalso; apply (total to_float to_int _ _ E)].
    exfalso. apply (accepted to_float to_int _ U) in E. destruct E as (l & vals & L & M). assert (EL := vals_length to_float to_int _ l vals ns M). cbn in EL.
    apply (line_line' _ U) in L. inversion L; subst; try (match goal with H : line' _ [] _ _ |- _ => inversion H; subst end); discriminate.
Qed.
End Scripts.
Print Assumptions C70_run_arguments.
Print Assumptions C70_topography.
Print Assumptions C70_phase_velocity.
Print Assumptions C70_lensing.
Print Assumptions C70_plots.
Print Assumptions C70_positional_default_refuted.

(** a negative number in scientific notation cannot follow its option as a
    word of its own *)
Lemma unknown_by : forall P : @parser R, usual P -> forall w t, w <> "--" -> parse_optional P w = Some (TO t) -> t_action t = None -> unknown P w.
Proof. intros P U w t N E T. assert (S := parse_optional_shape P U w N). rewrite E in S. inversion S; subst; cbn in T; try discriminate. assumption. Qed.
Theorem C70_exponent_refuted : exists (to_float : string -> option R) (v : string) (x : R), to_float v = Some x /\
  (forall to_int a r ns, ~ In "--" a -> parse_args to_float to_int (topo_main micro) (a ++ "--mu" :: v :: r) <> Parsed ns) /\
  (forall to_int, exists ns, parse_args to_float to_int (topo_main micro) [String.append "--mu=" v] = Parsed ns /\ In ("mu", AFloat x) ns).
Proof.
  exists (fun s => if String.eqb s "-1e-3" then Some (-1 / 1000)%R else None), "-1e-3", (-1 / 1000)%R. split; [reflexivity|]. destruct (C70_usual R micro) as (U & _). split.
  - intros to_int a r ns N. replace (a ++ "--mu" :: "-1e-3" :: r) with ((a ++ ["--mu"]) ++ "-1e-3" :: r) by (rewrite <- app_assoc; reflexivity). apply unknown_word; [exact U| |].
    + intros I. apply in_app_or in I. destruct I as [I | [I | []]]; [auto|discriminate].
    + eapply unknown_by; [exact U|discriminate|reflexivity|reflexivity].
  - intros to_int. eexists. split; [reflexivity|]. cbn. auto 15.
Qed.
Print Assumptions C70_exponent_refuted.

(** --eta 1 is not the default of --eta *)
Theorem C70_eta_refuted : exists (to_float : string -> option R) argv argv' ns ns', to_float "1" = Some 1%R /\
  argv = ["d.txt"; "p.npz"] /\ argv' = ["d.txt"; "p.npz"; "--eta"; "1"] /\
  (forall to_int, parse_args to_float to_int (phase_main micro) argv = Parsed ns /\ parse_args to_float to_int (phase_main micro) argv' = Parsed ns') /\
  phase_of ns = Some (Phase false (EInt 1)) /\ phase_of ns' = Some (Phase false (EFloat 1)).
Proof.
  exists (fun s => if String.eqb s "1" then Some 1%R else None), ["d.txt"; "p.npz"], ["d.txt"; "p.npz"; "--eta"; "1"]. eexists. eexists.
  split; [reflexivity|]. split; [reflexivity|]. split; [reflexivity|]. split; [intros to_int; split; reflexivity|]. split; reflexivity.
Qed.
Print Assumptions C70_eta_refuted.

(** without options: all attributes *)
Theorem C70_defaults : forall (F : Type) (x : F) (to_float : string -> option F) (to_int : string -> option Z),
  parse_args to_float to_int (topo_main x) [] =
    Parsed [("infile", AStr "ETOPO1_Ice_hpx_256.fits"); ("outdir", AStr "."); ("jobid", AStr "0"); ("algo", AStr "myula"); ("setting", AStr "synthesis");
            ("delta", AFloat x); ("mu", AInt 1); ("L", AInt 32); ("makenoise", ABool false); ("sigma", AInt 1); ("scaleafrica", AInt 0)] /\
  parse_args to_float to_int (phase_main x) ["d.txt"; "p.npz"] =
    Parsed [("infile", AStr "d.txt"); ("pathsfile", AStr "p.npz"); ("outdir", AStr "."); ("jobid", AStr "0"); ("algo", AStr "myula"); ("setting", AStr "synthesis");
            ("delta", AFloat x); ("mu", AInt 1); ("L", AInt 28); ("eta", AInt 1); ("nsim", ABool false)] /\
  parse_args to_float to_int (lens_main x) ["k.fits"] =
    Parsed [("infile", AStr "k.fits"); ("outdir", AStr "."); ("jobid", AStr "0"); ("algo", AStr "myula"); ("setting", AStr "synthesis");
            ("delta", AFloat x); ("mu", AInt 1); ("L", AInt 512)] /\
  parse_args to_float to_int topo_plot_parser ["c.hdf5"; "out"] =
    Parsed [("datafile", AStr "c.hdf5"); ("directory", AStr "out"); ("suffix", AStr ""); ("burn", AInt 0); ("save_npy", ABool false)] /\
  parse_args to_float to_int phase_plot_parser ["c.hdf5"; "out"] =
    Parsed [("datafile", AStr "c.hdf5"); ("directory", AStr "out"); ("suffix", AStr ""); ("burn", AInt 1000); ("save_npy", ABool false)] /\
  parse_args to_float to_int lens_plot_parser ["c.hdf5"; "out"] =
    Parsed [("datafile", AStr "c.hdf5"); ("directory", AStr "out"); ("suffix", AStr ""); ("burn", AInt 1000); ("save_npy", ABool false); ("no_mask", ABool false)].
Proof. intros F x to_float to_int. split; [reflexivity|]. split; [reflexivity|]. split; [reflexivity|]. split; [reflexivity|]. split; reflexivity. Qed.
Print Assumptions C70_defaults.

(** *** cases *)
Definition read_z (s : string) : option Z := if String.eqb s "3" then Some 3%Z else if String.eqb s "-5" then Some (-5)%Z else None.
(** abbreviations, both forms of values, positionals between options, and the
    last mention *)
Example C70_case : forall x : R,
  parse_args (fun s => option_map IZR (read_z s)) read_z (phase_main x) ["--et"; "-5"; "d.txt"; "--L=3"; "--alg"; "skrock"; "p.npz"; "--nsim"; "--eta=3"] =
    Parsed [("infile", AStr "d.txt"); ("pathsfile", AStr "p.npz"); ("outdir", AStr "."); ("jobid", AStr "0"); ("algo", AStr "skrock"); ("setting", AStr "synthesis");
            ("delta", AFloat x); ("mu", AInt 1); ("L", AInt 3); ("eta", AFloat 3%R); ("nsim", ABool true)].
Proof. reflexivity. Qed.
(** -s is no option, --s is ambiguous, --infile is none of weaklensing/main.py *)
Example C70_case_errors : forall (x : R) fl il,
  parse_args fl il (topo_main x) ["-s"; "3"] = Exit2 /\ parse_args fl il (topo_main x) ["--s"; "3"] = Exit2 /\
  parse_args fl il (lens_main x) ["--infile"; "k.fits"] = Exit2 /\ parse_args fl il (lens_main x) ["k.fits"; "more"] = Exit2 /\
  parse_args fl il (topo_main x) ["--makenoise=1"] = Exit2 /\ parse_args fl il (topo_main x) ["--bogus"; "-h"] = Exit0 /\
  parse_args fl il (topo_main x) ["-hx"] = Exit0 /\ parse_args fl il (topo_main x) ["--L"; "-h"] = Exit2.
Proof. intros x fl il. split; [reflexivity|]. split; [reflexivity|]. split; [reflexivity|]. split; [reflexivity|]. split; [reflexivity|]. split; [reflexivity|]. split; reflexivity. Qed.
(** a directory called -- *)
Example C70_case_dashes : forall fl il,
  parse_args (F := R) fl il topo_plot_parser ["--"; "c.hdf5"; "--"] =
    Parsed [("datafile", AStr "c.hdf5"); ("directory", AList []); ("suffix", AStr ""); ("burn", AInt 0); ("save_npy", ABool false)] /\
  parse_args (F := R) fl il topo_plot_parser ["--"; "c.hdf5"; "--burn"] =
    Parsed [("datafile", AStr "c.hdf5"); ("directory", AStr "--burn"); ("suffix", AStr ""); ("burn", AInt 0); ("save_npy", ABool false)].
Proof. intros fl il. split; reflexivity. Qed.
