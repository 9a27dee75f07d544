(** Model of the command lines of the scripts in /repo/experiments: the tables
    of options (earthtopography/main.py:21-69 and plot.py:18-37,
    phasevel/main.py:63-122 and plot.py:19-38, weaklensing/main.py:43-84 and
    plot.py:20-42) and the parts of argparse they use (Lib/argparse.py of
    CPython 3.11.10: parse_args, _parse_known_args, _parse_optional,
    _get_option_tuples, _match_argument, _match_arguments_partial,
    _get_values).  Words are strings of bytes.  int() and float() are oracles.
    Messages are not modelled: an error is exit status 2, help is exit status
    0.  Help texts, prog, mutually exclusive groups, other values of nargs and
    files with arguments do not occur. *)
From Coq Require Import List ZArith Bool Ascii String.
Import ListNotations.
Open Scope string_scope.
Open Scope list_scope.
Notation length := List.length.

Section Args.
Context {F : Type}.
(** float(s) and int(s); None: ValueError *)
Variables (to_float : string -> option F) (to_int : string -> option Z).

(** type= and action= of add_argument; KTrue is store_true *)
Inductive kind := KStr | KInt | KFloat | KTrue | KHelp.
(** values of attributes of the namespace *)
Inductive value := AStr (s : string) | AInt (z : Z) | AFloat (x : F) | ABool (b : bool) | ANone | AList (l : list string).
(** one add_argument call; positionals have no option strings *)
Record action := mkAction { a_dest : string; a_strings : list string; a_kind : kind; a_default : value }.
Definition parser := list action.
Definition namespace := list (string * value).

(** parser._option_string_actions *)
Definition option_actions (P : parser) : list (string * action) :=
  flat_map (fun a => map (fun s => (s, a)) (a_strings a)) P.
Definition find_option (P : parser) (s : string) : option action :=
  option_map snd (find (fun e => String.eqb (fst e) s) (option_actions P)).
(** parser._get_positional_actions() *)
Definition positionals (P : parser) : list action := filter (fun a => match a_strings a with [] => true | _ => false end) P.

Definition dash : ascii := "-"%char.
(** s.partition("=") with an "=" in s *)
Fixpoint partition_eq (s : string) : option (string * string) :=
  match s with
  | EmptyString => None
  | String c r => if Ascii.eqb c "="%char then Some ("", r)
                  else option_map (fun p => (String c (fst p), snd p)) (partition_eq r)
  end.
Fixpoint has_space (s : string) : bool :=
  match s with EmptyString => false | String c r => Ascii.eqb c " "%char || has_space r end.
Definition is_digit (c : ascii) : bool := let n := nat_of_ascii c in (48 <=? n)%nat && (n <=? 57)%nat.
(** \d* and the rest *)
Fixpoint skip_digits (s : string) : string :=
  match s with String c r => if is_digit c then skip_digits r else s | EmptyString => EmptyString end.
(** $: the end or a newline at the end *)
Definition at_end (s : string) : bool := String.eqb s "" || String.eqb s (String "010"%char "").
(** \d+$ *)
Definition digits_end (s : string) : bool :=
  match s with String c r => is_digit c && at_end (skip_digits r) | EmptyString => false end.
(** _negative_number_matcher: ^-\d+$|^-\d*\.\d+$ *)
Definition negative_number (s : string) : bool :=
  match s with
  | String c r =>
      Ascii.eqb c dash &&
      (digits_end r ||
       match skip_digits r with String d r' => Ascii.eqb d "."%char && digits_end r' | EmptyString => false end)
  | EmptyString => false
  end.

(** what _parse_optional finds: the action (None: no such option), the option
    string, and separator with explicit argument *)
Record otuple := mkOt { t_action : option action; t_string : string; t_explicit : option (string * string) }.

(** _get_option_tuples *)
Definition get_option_tuples (P : parser) (s : string) : list otuple :=
  match s with
  | String c0 (String c1 r) =>
      if Ascii.eqb c1 dash then
        let '(pre, ex) := match partition_eq s with Some (a, b) => (a, Some ("=", b)) | None => (s, None) end in
        flat_map (fun e => if prefix pre (fst e) then [mkOt (Some (snd e)) (fst e) ex] else []) (option_actions P)
      else
        flat_map (fun e =>
          if String.eqb (fst e) (String c0 (String c1 "")) then [mkOt (Some (snd e)) (fst e) (Some ("", r))]
          else if prefix s (fst e) then [mkOt (Some (snd e)) (fst e) None] else []) (option_actions P)
  | _ => []
  end.

(** the class of a word: an argument, the word --, an option *)
Inductive cls := TA | TD | TO (t : otuple).
(** _parse_optional; None: the error "ambiguous option" *)
Definition parse_optional (P : parser) (s : string) : option cls :=
  match s with
  | EmptyString => Some TA
  | String c r =>
      if negb (Ascii.eqb c dash) then Some TA
      else match find_option P s with
      | Some a => Some (TO (mkOt (Some a) s None))
      | None =>
        if String.eqb r "" then Some TA
        else
          let tuples :=
            match get_option_tuples P s with
            | _ :: _ :: _ => None
            | [t] => Some (TO t)
            | [] => if negative_number s then Some TA else if has_space s then Some TA else Some (TO (mkOt None s None))
            end in
          match partition_eq s with
          | Some (o, e) => match find_option P o with Some a => Some (TO (mkOt (Some a) o (Some ("=", e)))) | None => tuples end
          | None => tuples
          end
      end
  end.
(** the words with their classes *)
Definition word : Type := string * cls.
(** the loop that builds arg_strings_pattern; None: an ambiguous option *)
Fixpoint classify (P : parser) (argv : list string) : option (list word) :=
  match argv with
  | [] => Some []
  | s :: r =>
      if String.eqb s "--" then Some ((s, TD) :: map (fun w => (w, TA)) r)
      else match parse_optional P s, classify P r with
           | Some c, Some l => Some ((s, c) :: l)
           | _, _ => None
           end
  end.

(** the number of arguments of an option: nargs=None for store, 0 else *)
Definition takes_value (k : kind) : bool := match k with KStr | KInt | KFloat => true | _ => false end.

(** setattr(namespace, dest, value) *)
Fixpoint set_attr (ns : namespace) (d : string) (v : value) : namespace :=
  match ns with
  | [] => [(d, v)]
  | (k, u) :: r => if String.eqb k d then (k, v) :: r else (k, u) :: set_attr r d v
  end.
Definition get_attr (ns : namespace) (d : string) : option value :=
  option_map snd (find (fun e => String.eqb (fst e) d) ns).

(** outcome of the command line: the namespace, exit status 2 or 0 *)
Inductive cmdline := Parsed (ns : namespace) | Exit2 | Exit0 | Fuel.
Inductive taken := Done (ns : namespace) | Failed | Helped.

(** _get_value *)
Definition convert (k : kind) (s : string) : option value :=
  match k with
  | KStr => Some (AStr s)
  | KInt => option_map AInt (to_int s)
  | KFloat => option_map AFloat (to_float s)
  | _ => None
  end.
(** take_action for an option *)
Definition take_option (a : action) (args : list string) (ns : namespace) : taken :=
  match a_kind a with
  | KHelp => Helped
  | KTrue => Done (set_attr ns (a_dest a) (ABool true))
  | k => match args with
         | [s] => match convert k s with Some v => Done (set_attr ns (a_dest a) v) | None => Failed end
         | _ => Failed
         end
  end.
(** take_action for the tuples of consume_optional *)
Fixpoint take_options (l : list (action * list string)) (ns : namespace) : taken :=
  match l with
  | [] => Done ns
  | (a, args) :: r => match take_option a args ns with Done ns' => take_options r ns' | t => t end
  end.
(** arg_strings.remove("--") *)
Fixpoint remove_first (l : list string) : list string :=
  match l with [] => [] | s :: r => if String.eqb s "--" then r else s :: remove_first r end.
(** take_action for a positional; all positionals of the scripts are type=str *)
Definition positional_value (args : list string) : value :=
  match remove_first args with [s] => AStr s | l => AList l end.

(** the while loop of consume_optional, as long as there is an explicit
    argument [e]: an error, the actions and extras found, or the last action
    without explicit argument *)
Inductive explicit_end := XErr | XStop (l : list (action * list string)) (extras : list string) | XOpen (l : list (action * list string)) (a : action).
Fixpoint consume_explicit (P : parser) (a : action) (os sep e : string) (acc : list (action * list string)) : explicit_end :=
  if takes_value (a_kind a) then XStop (acc ++ [(a, [e])]) []
  else match os, e with
  | String c0 (String c1 _), String e0 e' =>
      if Ascii.eqb c1 dash then XErr
      else if negb (String.eqb sep "") || Ascii.eqb e0 dash then XErr
      else
        let acc' := acc ++ [(a, [])] in
        let os' := String c0 (String e0 "") in
        match find_option P os' with
        | Some a' =>
            match e' with
            | EmptyString => XOpen acc' a'
            | String d e'' => if Ascii.eqb d "="%char then consume_explicit P a' os' "=" e'' acc'
                              else consume_explicit P a' os' "" e' acc'
            end
        | None => XStop acc' [String c0 e]
        end
  | _, _ => XErr
  end.
(** consume_optional: the actions to take, the words left, the extras; None:
    ArgumentError *)
Definition consume_optional (P : parser) (s : string) (t : otuple) (rest : list word)
  : option (list (action * list string) * list word * list string) :=
  let open acc a :=
    if takes_value (a_kind a) then
      match rest with (v, TA) :: r => Some (acc ++ [(a, [v])], r, []) | _ => None end
    else Some (acc ++ [(a, [])], rest, []) in
  match t_action t with
  | None => Some ([], rest, [s])
  | Some a =>
      match t_explicit t with
      | None => open [] a
      | Some (sep, e) =>
          match consume_explicit P a (t_string t) sep e [] with
          | XErr => None
          | XStop l ex => Some (l, rest, ex)
          | XOpen acc a' => open acc a'
          end
      end
  end.

(** the pattern of one positional, words -- around one argument: the number of words matched *)
Fixpoint lead_dashes (l : list word) : nat := match l with (_, TD) :: r => S (lead_dashes r) | _ => 0%nat end.
Definition match_one (l : list word) : option nat :=
  let i := lead_dashes l in
  match skipn i l with (_, TA) :: r => Some (i + 1 + lead_dashes r)%nat | _ => None end.
Fixpoint match_many (n : nat) (l : list word) : option (list nat) :=
  match n with
  | O => Some []
  | S n => match match_one l with
           | Some k => option_map (cons k) (match_many n (skipn k l))
           | None => None
           end
  end.
(** _match_arguments_partial *)
Fixpoint match_partial (n : nat) (l : list word) : list nat :=
  match n with O => [] | S m => match match_many n l with Some c => c | None => match_partial m l end end.
(** consume_positionals: positionals left, namespace, words left *)
Fixpoint take_positionals (counts : list nat) (pos : list action) (ns : namespace) (l : list word) : list action * namespace * list word :=
  match counts, pos with
  | k :: counts, a :: pos =>
      take_positionals counts pos (set_attr ns (a_dest a) (positional_value (map fst (firstn k l)))) (skipn k l)
  | _, _ => (pos, ns, l)
  end.
Definition consume_positionals (pos : list action) (ns : namespace) (l : list word) : list action * namespace * list word :=
  take_positionals (match_partial (length pos) l) pos ns l.

Definition is_option (w : word) : bool := match snd w with TO _ => true | _ => false end.
(** words up to the next option string, and the rest *)
Fixpoint to_option (l : list word) : list string * list word :=
  match l with
  | [] => ([], [])
  | w :: r => if is_option w then ([], l) else let (a, b) := to_option r in (fst w :: a, b)
  end.
(** the main loop of _parse_known_args and what follows it *)
Fixpoint parse_loop (P : parser) (fuel : nat) (l : list word) (pos : list action) (ns : namespace) (extras : list string) : cmdline :=
  match fuel with
  | O => Fuel
  | S fuel =>
      let optional l extras :=
        match l with
        | (s, TO t) :: rest =>
            match consume_optional P s t rest with
            | None => Exit2
            | Some (acts, rest', ex) =>
                match take_options acts ns with
                | Failed => Exit2
                | Helped => Exit0
                | Done ns' => parse_loop P fuel rest' pos ns' (extras ++ ex)
                end
            end
        | _ => Exit2
        end in
      if existsb is_option l then
        match l with
        | (_, TO _) :: _ => optional l extras
        | _ =>
            let '(pos', ns', l') := consume_positionals pos ns l in
            if (length l' <? length l)%nat then parse_loop P fuel l' pos' ns' extras
            else let (strings, next) := to_option l in optional next (extras ++ strings)
        end
      else
        let '(pos', ns', l') := consume_positionals pos ns l in
        match pos', extras ++ map fst l' with
        | [], [] => Parsed ns'
        | _, _ => Exit2
        end
  end.
(** parser.parse_args(argv): the defaults, then the loop.  The defaults of
    the scripts are not changed by their type *)
Definition defaults (P : parser) : namespace :=
  flat_map (fun a => match a_kind a with KHelp => [] | _ => [(a_dest a, a_default a)] end) P.
Definition parse_args (P : parser) (argv : list string) : cmdline :=
  match classify P argv with
  | None => Exit2
  | Some l => parse_loop P (S (length l)) l (positionals P) (defaults P) []
  end.

(** *** the parsers of the scripts *)
Definition opt (name : string) (k : kind) (d : value) : action := mkAction name [String.append "--" name] k d.
Definition flag (name : string) : action := opt name KTrue (ABool false).
Definition posl (name : string) (d : value) : action := mkAction name [] KStr d.
(** add_help=True *)
Definition help : action := mkAction "help" ["-h"; "--help"] KHelp ANone.
(** the literal 1e-6 *)
Variable micro : F.
(** options that the three main.py share: earthtopography/main.py:28-57,
    phasevel/main.py:76-105, weaklensing/main.py:49-78 *)
Definition shared : list action :=
  [opt "outdir" KStr (AStr "."); opt "jobid" KStr (AStr "0"); opt "algo" KStr (AStr "myula"); opt "setting" KStr (AStr "synthesis");
   opt "delta" KFloat (AFloat micro); opt "mu" KFloat (AInt 1)].
(** earthtopography/main.py:21-68 *)
Definition topo_main : parser :=
  [help; opt "infile" KStr (AStr "ETOPO1_Ice_hpx_256.fits")] ++ shared ++
  [opt "L" KInt (AInt 32); flag "makenoise"; opt "sigma" KFloat (AInt 1); opt "scaleafrica" KInt (AInt 0)].
(** phasevel/main.py:63-119 *)
Definition phase_main : parser :=
  [help; posl "infile" (AStr "synthetic_GDM40_0S254_L28.txt"); posl "pathsfile" (AStr "0S254L28.npz")] ++ shared ++
  [opt "L" KInt (AInt 28); opt "eta" KFloat (AInt 1); flag "nsim"].
(** weaklensing/main.py:43-81 *)
Definition lens_main : parser := [help; posl "infile" ANone] ++ shared ++ [opt "L" KInt (AInt 512)].
(** earthtopography/plot.py:18-36, phasevel/plot.py:19-37 and
    weaklensing/plot.py:20-38, with the default of --burn *)
Definition plot_parser (burn : Z) : parser :=
  [help; posl "datafile" ANone; posl "directory" ANone; opt "suffix" KStr (AStr ""); opt "burn" KInt (AInt burn); flag "save_npy"].
Definition topo_plot_parser : parser := plot_parser 0.
Definition phase_plot_parser : parser := plot_parser 1000.
(** with --no-mask, weaklensing/plot.py:39-41: the attribute is no_mask *)
Definition lens_plot_parser : parser := plot_parser 1000 ++ [mkAction "no_mask" ["--no-mask"] KTrue (ABool false)].
End Args.
