(** * SpecWrite: how a policy is written, word by word, and what it then says.

    Independent of the lexer's and the grammar's rules: only the policy's abstract syntax is used. *)
From Verif Require Import GoBase FalcoModel.
Local Open Scope string_scope.

(** ** Characters and words *)
Definition byte_in (lo hi : nat) (c : ascii) : Prop := lo <= nat_of_ascii c <= hi.
Definition letter_or_digit (c : ascii) : Prop := byte_in 97 122 c \/ byte_in 65 90 c \/ byte_in 48 57 c.
Definition each (P : ascii -> Prop) (s : string) : Prop := forall u c v, s = u ++ String c v -> P c.
Definition line_end (c : ascii) : Prop := c = ascii_of_nat 10 \/ c = ascii_of_nat 13.
(** The words of the language. *)
Definition fields_of_rule : list string :=
  ["desc"; "condition"; "actions"; "output"; "priority"; "tags"; "prefilter"; "enabled"; "warn_evttypes"; "skip-if-unknown-filter"; "append"].
Definition other_words : list string :=
  ["rule"; "filter"; "drop"; "macro"; "list"; "name"; "items"; "required_engine_version"; "and"; "or"; "not"; "in"; "contains"; "icontains";
   "startswith"; "endswith"; "pmatch"; "exists"].
Definition signs : list string := ["<"; "<="; ">"; ">="; "="; "!="; "["; "]"; "("; ")"; ","].
(** The severities, in any mix of cases. *)
Definition severity (w : string) : Prop :=
  In (to_lower w) ["high"; "medium"; "low"; "emergency"; "alert"; "critical"; "error"; "warning"; "notice"; "info"; "informational"; "debug"].
(** Names: a letter, a digit or an underscore, then also dashes, dots and stars; no word of the language. *)
Definition name_chars (w : string) : Prop :=
  exists c s, w = String c s /\ (letter_or_digit c \/ c = "_"%char) /\ each (fun c => letter_or_digit c \/ In c ["_"; "-"; "."; "*"]%char) s.
Definition name (w : string) : Prop := name_chars w /\ ~ In w fields_of_rule /\ ~ In w other_words /\ ~ severity w.
(** Paths: begin with '/' or '.', or contain '/'. *)
Definition path (w : string) : Prop :=
  exists c s, w = String c s /\ (letter_or_digit c \/ c = "/"%char \/ c = "."%char) /\ each (fun c => letter_or_digit c \/ In c ["_"; "-"; "."; "/"; "*"]%char) s /\
    (c = "/"%char \/ c = "."%char \/ exists a b, w = a ++ "/" ++ b).
(** Texts in single or double quotes, on one line, that do not contain the quote, and do not begin with a quote or a backslash. *)
Definition quoted (w : string) : Prop :=
  exists q c body, (q = ascii_of_nat 34 \/ q = ascii_of_nat 39) /\ w = String q (String c body ++ String q "") /\
    ~ In c (map ascii_of_nat [34; 39; 92]%nat) /\ each (fun c => c <> q /\ ~ line_end c) (String c body).
(** Pairs of names. *)
Definition tag (w : string) : Prop := exists x y, w = x ++ ":" ++ y /\ name_chars x /\ name_chars y.
Definition value (w : string) : Prop := name w \/ path w \/ quoted w \/ tag w \/ w = "<" \/ w = ">".
(** Words of free text: no field name, no '-'. *)
Definition free (w : string) : Prop := value w \/ severity w \/ In w other_words \/ In w signs.

(** ** Layout: white space, and comments to the end of the line *)
Inductive space : string -> Prop :=
| s_nil : space ""
| s_blank : forall n s, In n [32; 9; 10; 13; 12]%nat -> space s -> space (String (ascii_of_nat n) s)
| s_comment : forall x c s, each (fun c => ~ line_end c) x -> line_end c -> space s -> space (String "#" (x ++ String c s)).
(** A text that consists of the given words, separated by spaces. *)
Inductive written : bool -> list string -> string -> Prop :=
| w_end : forall first g, space g -> written first [] g
| w_word : forall (first : bool) g w ws s, space g -> (first = true \/ g <> "") -> written false ws s -> written first (w :: ws) (g ++ w ++ s).
Definition written_as (ws : list string) (s : string) : Prop := written true ws s.
(** The text from the first to the last of the words. *)
Inductive words_text : list string -> string -> Prop :=
| wt_one : forall w, words_text [w] w
| wt_more : forall w g ws s, space g -> g <> "" -> words_text ws s -> words_text (w :: ws) (w ++ g ++ s).

(** ** Conditions *)
Definition op_word (op : binop) : string :=
  match op with
  | BLt => "<" | BLe => "<=" | BGt => ">" | BGe => ">=" | BEq => "=" | BNeq => "!="
  | BContains => "contains" | BIContains => "icontains" | BStartswith => "startswith" | BEndswith => "endswith"
  end.
(** Lists of words with [sep] in between. *)
Fixpoint sep_by (sep : string) (l : list (list string)) : list string :=
  match l with [] => [] | [x] => x | x :: l' => (x ++ sep :: sep_by sep l')%list end.
Definition items_words (it : items) : list string :=
  ("[" :: sep_by "," (map (fun a => [a]) (it_atoms it)) ++ (if it_trail it then [","] else []) ++ ["]"])%list.
Definition arg_words (a : listarg) : list string := match a with LAtom s => [s] | LItems it => items_words it end.
Fixpoint term_words (t : term) : list string :=
  match t with
  | TVar x => [x]
  | TNot t => "not" :: term_words t
  | TExists a => [a; "exists"]
  | TBin a op b => [a; op_word op; b]
  | TIn a args => (a :: "in" :: "(" :: sep_by "," (map arg_words args) ++ [")"])%list
  | TPmatch a args => (a :: "pmatch" :: "(" :: sep_by "," (map arg_words args) ++ [")"])%list
  | TParen e => ("(" :: sep_by "or" (map (fun c => sep_by "and" (map term_words c)) e) ++ [")"])%list
  end.
Definition expr_words (e : expr) : list string := sep_by "or" (map (fun c => sep_by "and" (map term_words c)) e).
Definition items_fine (it : items) : Prop := Forall value (it_atoms it).
Definition arg_fine (a : listarg) : Prop := match a with LAtom s => value s | LItems it => items_fine it end.
Inductive term_fine : term -> Prop :=
| f_var : forall x, name x -> term_fine (TVar x)
| f_not : forall t, term_fine t -> term_fine (TNot t)
| f_exists : forall a, value a -> term_fine (TExists a)
| f_bin : forall a op b, value a -> value b -> term_fine (TBin a op b)
| f_in : forall a args, value a -> args <> [] -> Forall arg_fine args -> term_fine (TIn a args)
| f_pmatch : forall a args, value a -> args <> [] -> Forall arg_fine args -> term_fine (TPmatch a args)
| f_paren : forall e, e <> [] -> (forall c, In c e -> c <> [] /\ forall t, In t c -> term_fine t) -> term_fine (TParen e).
Definition expr_fine (e : expr) : Prop := e <> [] /\ forall c, In c e -> c <> [] /\ forall t, In t c -> term_fine t.

(** ** Declarations; names, descriptions and outputs are free text *)
Inductive wopt :=
| WOutput (ws : list string) | WActions (it : items) | WPriority (s : string) | WTags (it : items)
| WPrefilter (it : items) | WEnabled (s : string) | WWarn (s : string) | WSkip (s : string).
Inductive wdecl :=
| WRule (nm desc : list string) (e : expr) (opts : list wopt)
| WFilter (kw x : string) (e : expr) (enabled : option string)
| WMacro (x : string) (e : expr) (append : option string)
| WList (x : string) (it : items)
| WReq (v : string).
Definition opt_words (o : wopt) : list string :=
  match o with
  | WOutput ws => "output" :: ":" :: ws | WActions it => "actions" :: ":" :: items_words it | WPriority s => ["priority"; ":"; s]
  | WTags it => "tags" :: ":" :: items_words it | WPrefilter it => "prefilter" :: ":" :: items_words it
  | WEnabled s => ["enabled"; ":"; s] | WWarn s => ["warn_evttypes"; ":"; s] | WSkip s => ["skip-if-unknown-filter"; ":"; s]
  end.
Definition decl_words (d : wdecl) : list string :=
  match d with
  | WRule nm desc e opts => ("-" :: "rule" :: ":" :: nm ++ "desc" :: ":" :: desc ++ "condition" :: ":" :: expr_words e ++ List.concat (map opt_words opts))%list
  | WFilter kw x e en => ("-" :: kw :: ":" :: x :: "condition" :: ":" :: expr_words e ++ match en with Some a => ["enabled"; ":"; a] | None => [] end)%list
  | WMacro x e ap => ("-" :: "macro" :: ":" :: x :: "condition" :: ":" :: expr_words e ++ match ap with Some a => ["append"; ":"; a] | None => [] end)%list
  | WList x it => "-" :: "list" :: ":" :: x :: "items" :: ":" :: items_words it
  | WReq v => ["-"; "required_engine_version"; ":"; v]
  end.
(** What follows a ':' does not begin with '>' (": >" has another meaning). *)
Definition after_colon (w : string) : Prop := forall s, w <> String ">" s.
Definition text_fine (ws : list string) : Prop := (exists w ws', ws = w :: ws' /\ after_colon w) /\ Forall free ws.
Definition flag_fine (w : string) : Prop := value w /\ after_colon w.
Definition opt_fine (o : wopt) : Prop :=
  match o with
  | WOutput ws => text_fine ws
  | WActions it | WTags it | WPrefilter it => items_fine it
  | WPriority s => severity s
  | WEnabled s | WWarn s | WSkip s => flag_fine s
  end.
(** An output is followed by another field of its rule. *)
Definition outputs_followed (opts : list wopt) : Prop := forall a ws, opts <> (a ++ [WOutput ws])%list.
(** A condition follows a ':' too. *)
Definition cond_fine (e : expr) : Prop := expr_fine e /\ forall w ws, expr_words e = w :: ws -> after_colon w.
Definition decl_fine (d : wdecl) : Prop :=
  match d with
  | WRule nm desc e opts => text_fine nm /\ text_fine desc /\ cond_fine e /\ Forall opt_fine opts /\ outputs_followed opts
  | WFilter kw x e en => In kw ["filter"; "drop"] /\ name x /\ cond_fine e /\ match en with Some a => flag_fine a | None => True end
  | WMacro x e ap => name x /\ cond_fine e /\ match ap with Some a => flag_fine a | None => True end
  | WList x it => name x /\ items_fine it
  | WReq v => flag_fine v
  end.
Definition policy_words (p : list wdecl) : list string := List.concat (map decl_words p).

(** ** What it says *)
Definition opt_says (o : wopt) (o' : ropt) : Prop :=
  match o with
  | WOutput ws => exists s, words_text ws s /\ o' = OOutput s
  | WActions it => o' = OActions it | WPriority s => o' = OPriority s | WTags it => o' = OTags it | WPrefilter it => o' = OPrefilter it
  | WEnabled s => o' = OEnabled s | WWarn s => o' = OWarn s | WSkip s => o' = OSkip s
  end.
Definition decl_says (d : wdecl) (d' : decl) : Prop :=
  match d with
  | WRule nm desc e opts => exists n s os, words_text nm n /\ words_text desc s /\ Forall2 opt_says opts os /\ d' = DRule (mkRuleDecl n s e os)
  | WFilter _ x e en => d' = DFilter (mkFilterDecl x e en)
  | WMacro x e ap => d' = DMacro x e ap
  | WList x it => d' = DList x it
  | WReq v => d' = DReq v
  end.
