(** Which command lines argparse accepts, and what they mean (C70). *)
From Coq Require Import List ZArith Bool Ascii String.
From Verif Require Import Args.
Import ListNotations.
Open Scope list_scope.
Notation length := List.length.
Notation append := String.append.

Section Spec.
Context {F : Type}.
Notation parser := (@parser F).
Notation action := (@action F).
Notation value := (@value F).

(** *** parsers like those of the scripts *)
(** o is an option string of a *)
Definition option_of (P : parser) (o : string) (a : action) : Prop := In a P /\ In o (a_strings a).
Definition is_option_string (P : parser) (o : string) : Prop := exists a, option_of P o a.
Definition contains_eq (s : string) : Prop := exists x y, s = append x (append "=" y).
(** -h and --help; the other options are written --name, without "=" *)
Definition usual (P : parser) : Prop :=
  NoDup (flat_map a_strings P) /\ NoDup (map a_dest P) /\
  (forall a, In a P -> a_strings a = [] -> a_kind a = KStr) /\
  (forall o a, option_of P o a ->
     ~ contains_eq o /\ (a_kind a = KHelp <-> o = "-h" \/ o = "--help")%string /\
     (o = "-h" \/ exists c n, o = append "--" (String c n))%string) /\
  is_option_string P "-h" /\ is_option_string P "--help".

(** *** words *)
(** the part before "=" *)
Definition before_eq (w p : string) : Prop :=
  ~ contains_eq p /\ (w = p \/ exists e, w = append p (append "=" e)).
(** p is long enough to tell option o from the others *)
Definition abbreviates (P : parser) (p o : string) : Prop :=
  ~ is_option_string P p /\ (exists r, p = append "--" r) /\ is_option_string P o /\ (exists r, o = append p r) /\
  forall o', is_option_string P o' -> (exists r, o' = append p r) -> o' = o.
(** word w is the option o, with the argument after "=" if there is one *)
Definition reads (P : parser) (w o : string) (e : option string) : Prop :=
  w <> "--"%string /\ is_option_string P o /\
  exists p, (p = o \/ abbreviates P p o) /\ ~ contains_eq p /\ w = match e with None => p | Some x => append p (append "=" x) end.
Definition ambiguous (P : parser) (w : string) : Prop :=
  exists p o o' r r', before_eq w p /\ ~ is_option_string P p /\ (exists s, p = append "--" s) /\
    is_option_string P o /\ is_option_string P o' /\ o <> o' /\ o = append p r /\ o' = append p r'.
(** -h followed by something, in one word *)
Definition short_help (w : string) : Prop := exists c e, w = append "-h" (String c e) /\ c <> "="%char.

(** digits and an optional newline at the end *)
Inductive digit : ascii -> Prop := digit_intro : forall n, n < 10 -> digit (ascii_of_nat (48 + n)).
Inductive digits : string -> Prop :=
| digits_nil : digits ""
| digits_cons : forall c s, digit c -> digits s -> digits (String c s).
Definition newline_end (s t : string) : Prop := t = s \/ t = append s (String "010"%char "").
(** -12, -1.5, -.5 but not -5. or -1e3 *)
Definition negative_literal (w : string) : Prop :=
  exists c a b, digits a /\ digit c /\ digits b /\
    (newline_end (append "-" (String c b)) w \/ newline_end (append "-" (append a (append "." (String c b)))) w).
Definition contains_space (s : string) : Prop := exists x y, s = append x (append " " y).
(** a word that can be a value or a positional *)
Definition plain (P : parser) (w : string) : Prop :=
  w = ""%string \/ w = "-"%string \/ (exists c r, w = String c r /\ c <> "-"%char) \/
  (w <> "--"%string /\ (forall o e, ~ reads P w o e) /\ ~ ambiguous P w /\ ~ short_help w /\
   (negative_literal w \/ contains_space w)).
(** a word that looks like an option but is none *)
Definition unknown (P : parser) (w : string) : Prop :=
  (exists r, w = append "-" r) /\ w <> "-"%string /\ w <> "--"%string /\
  (forall o e, ~ reads P w o e) /\ ~ ambiguous P w /\ ~ short_help w /\ ~ negative_literal w /\ ~ contains_space w.

(** *** lines *)
(** an option with its value, a flag, a positional *)
Inductive item := IVal (o v : string) | IFlag (o : string) | IPos (v : string).
Definition with_value (k : kind) : Prop := k = KStr \/ k = KInt \/ k = KFloat.
Definition kind_of (P : parser) (o : string) (k : kind) : Prop := exists a, option_of P o a /\ a_kind a = k.
(** words before -- *)
Inductive items (P : parser) : list string -> list item -> Prop :=
| it_nil : items P [] []
| it_sep : forall w o k v r l, reads P w o None -> kind_of P o k -> with_value k -> plain P v -> items P r l -> items P (w :: v :: r) (IVal o v :: l)
| it_eq : forall w o k v r l, reads P w o (Some v) -> kind_of P o k -> with_value k -> items P r l -> items P (w :: r) (IVal o v :: l)
| it_flag : forall w o r l, reads P w o None -> kind_of P o KTrue -> items P r l -> items P (w :: r) (IFlag o :: l)
| it_pos : forall w r l, plain P w -> items P r l -> items P (w :: r) (IPos w :: l).
Definition pos_of (i : item) : list value := match i with IPos v => [AStr v] | _ => [] end.
(** a word -- after the first -- is lost: the positional becomes the empty list *)
Definition late (w : string) : value := if string_dec w "--" then AList [] else AStr w.
Definition ends_with_pos (l : list item) : Prop := exists l' v, l = l' ++ [IPos v].
(** whole lines: the items before -- and the values of all positionals *)
Inductive line (P : parser) : list string -> list item -> list value -> Prop :=
| line_all : forall argv l, items P argv l -> line P argv l (flat_map pos_of l)
| line_join : forall a l b, items P a l -> ends_with_pos l -> line P (a ++ "--"%string :: b) l (flat_map pos_of l ++ map late b)
| line_new : forall a l w b, items P a l -> ~ ends_with_pos l -> line P (a ++ "--"%string :: w :: b) l (flat_map pos_of l ++ AStr w :: map late b).

(** *** meaning *)
Variables (to_float : string -> option F) (to_int : string -> option Z).
(** the value v as option of kind k *)
Definition value_as (k : kind) (s : string) (v : value) : Prop :=
  match k with
  | KStr => v = AStr s
  | KInt => exists z, to_int s = Some z /\ v = AInt z
  | KFloat => exists x, to_float s = Some x /\ v = AFloat x
  | _ => False
  end.
(** item i sets option a to v *)
Definition sets (a : action) (i : item) (v : value) : Prop :=
  match i with
  | IVal o s => In o (a_strings a) /\ value_as (a_kind a) s v
  | IFlag o => In o (a_strings a) /\ v = ABool true
  | IPos _ => False
  end.
Definition about (a : action) (i : item) : Prop := match i with IVal o _ | IFlag o => In o (a_strings a) | IPos _ => False end.
(** every value is of the type of its option *)
Definition typed (P : parser) (l : list item) : Prop :=
  forall o s, In (IVal o s) l -> exists k v, kind_of P o k /\ value_as k s v.
Definition the_positionals (P : parser) (ps : list action) : Prop :=
  exists sel, ps = map fst (filter snd (combine P sel)) /\ length sel = length P /\
    Forall (fun e => snd e = true <-> a_strings (fst e) = []) (combine P sel).
(** the namespace: attributes in the order of the add_argument calls; the last
    mention of an option counts *)
Definition means (P : parser) (l : list item) (vals : list value) (ns : list (string * value)) : Prop :=
  typed P l /\
  (exists ps, the_positionals P ps /\ length ps = length vals /\
     forall i a v, nth_error ps i = Some a -> nth_error vals i = Some v -> In (a_dest a, v) ns) /\
  map fst ns = flat_map (fun a => match a_kind a with KHelp => [] | _ => [a_dest a] end) P /\
  forall a v, In a P -> a_strings a <> [] -> In (a_dest a, v) ns ->
    (exists l1 i l2, l = l1 ++ i :: l2 /\ sets a i v /\ forall j, In j l2 -> ~ about a j) \/
    (v = a_default a /\ forall j, In j l -> ~ about a j).

(** the value given last for option o; None: not given *)
Definition last_of (l : list item) (o : string) (s : option string) : Prop :=
  match s with
  | Some v => exists l1 l2, l = l1 ++ IVal o v :: l2 /\ forall u, ~ In (IVal o u) l2
  | None => forall u, ~ In (IVal o u) l
  end.
(** the items without the positionals *)
Definition is_pos (i : item) : bool := match i with IPos _ => true | _ => false end.
Definition same_options (l l' : list item) : Prop := filter (fun i => negb (is_pos i)) l = filter (fun i => negb (is_pos i)) l'.

(** *** help *)
(** words of which nothing is wrong yet; unknown options and too many
    positionals are reported at the end only *)
Inductive sloppy (P : parser) : list string -> Prop :=
| sl_nil : sloppy P []
| sl_sep : forall w o k v x r, reads P w o None -> kind_of P o k -> value_as k v x -> plain P v -> sloppy P r -> sloppy P (w :: v :: r)
| sl_eq : forall w o k v x r, reads P w o (Some v) -> kind_of P o k -> value_as k v x -> sloppy P r -> sloppy P (w :: r)
| sl_flag : forall w o r, reads P w o None -> kind_of P o KTrue -> sloppy P r -> sloppy P (w :: r)
| sl_pos : forall w r, plain P w -> sloppy P r -> sloppy P (w :: r)
| sl_unknown : forall w r, unknown P w -> sloppy P r -> sloppy P (w :: r).
(** -h, --help, an abbreviation, or -h...hx... *)
Inductive more_h : string -> Prop :=
| mh_end : more_h ""
| mh_h : forall s, more_h s -> more_h (String "h" s)
| mh_other : forall c s, c <> "h"%char -> c <> "-"%char -> c <> "="%char -> more_h (String c s).
Definition help_word (P : parser) (w : string) : Prop :=
  (exists o, reads P w o None /\ kind_of P o KHelp) \/ (short_help w /\ exists e, w = append "-h" e /\ more_h e).
(** the words before the first -- *)
Definition head_words (argv a : list string) : Prop :=
  ~ In "--"%string a /\ (argv = a \/ exists b, argv = a ++ "--"%string :: b).
Definition shows_help (P : parser) (argv : list string) : Prop :=
  exists a l1 w l2, head_words argv a /\ a = l1 ++ w :: l2 /\ (forall v, In v a -> ~ ambiguous P v) /\ sloppy P l1 /\ help_word P w.
End Spec.
