(** * SpecLexer: words, white space and comments. *)
From Verif Require Import GoBase FalcoModel GrammarModel LexerModel.
Local Open Scope string_scope.

(** White space and comments between two words; a comment runs from '#' to the end of the
    line. *)
Fixpoint no_eol (s : string) : bool :=
  match s with EmptyString => true | String c s' => negb (is_eol c) && no_eol s' end.
Inductive gap : string -> Prop :=
| gap_nil : gap ""
| gap_ws c s : is_ws c = true -> gap s -> gap (String c s)
| gap_comment x c s : no_eol x = true -> is_eol c = true -> gap s -> gap (String "#" (x ++ String c s)).

(** [word k w]: [w] alone is one visible token of kind [k]. *)
Definition starts (p : ascii -> bool) (s : string) : bool :=
  match s with EmptyString => false | String c _ => p c end.
Definition word (k : kind) (w : string) : Prop :=
  token_at w (slen w) k /\ odd_quote w = false /\
  starts (fun c => is_ws c || Ascii.eqb c "#") w = false /\
  w <> String dquote "" /\ w <> String squote "".

(** A text as words with what precedes each. *)
Record piece := mkPiece { pc_gap : string; pc_kind : kind; pc_word : string }.
Fixpoint render (l : list piece) (last : string) : string :=
  match l with
  | [] => last
  | p :: l' => pc_gap p ++ pc_word p ++ render l' last
  end.
Definition piece_tok (p : piece) : tok := mkTok (pc_kind p) (pc_word p) (pc_gap p).
(** Words are separated, and a ':' is not followed by a word beginning with '>' (": >" is
    itself a word). *)
Fixpoint separated (l : list piece) : Prop :=
  match l with
  | p :: ((q :: _) as l') =>
      pc_gap q <> "" /\ (pc_word p = ":" -> starts (Ascii.eqb ">") (pc_word q) = false) /\ separated l'
  | _ => True
  end.
Definition laid_out (l : list piece) : Prop :=
  Forall (fun p => gap (pc_gap p) /\ word (pc_kind p) (pc_word p)) l /\ separated l.

(** The same words. *)
Definition same_word (t u : tok) : Prop := tk t = tk u /\ tx t = tx u.


(** All the text of a token list, with the hidden text before each token. *)
Definition source (ts : list tok) : string := source_tail ts.
(** [inside x s]: [x] is a contiguous part of [s]. *)
Definition inside (x s : string) : Prop := exists a b, s = a ++ x ++ b.

(** The severity words, in any mix of cases. *)
Definition severity_word (s : string) : Prop :=
  In (to_lower s) ["high"; "medium"; "low"; "emergency"; "alert"; "critical"; "error"; "warning"; "notice";
                   "info"; "informational"; "debug"].

(** Texts, rules and declarations that differ only in the layout of names, descriptions and
    outputs. *)
Definition same_text (s s' : string) : Prop :=
  exists us us', Forall2 same_word us us' /\ s = source_text us /\ s' = source_text us'.
Definition same_opt (o o' : ropt) : Prop :=
  match o, o' with OOutput s, OOutput s' => same_text s s' | _, _ => o = o' end.
Definition same_decl (d d' : decl) : Prop :=
  match d, d' with
  | DRule r, DRule r' =>
      same_text (rd_name r) (rd_name r') /\ same_text (rd_desc r) (rd_desc r') /\
      rd_cond r = rd_cond r' /\ Forall2 same_opt (rd_opts r) (rd_opts r')
  | _, _ => d = d'
  end.
(** The characters of unquoted values. *)
Fixpoint sall (p : ascii -> bool) (s : string) : bool :=
  match s with EmptyString => true | String c s' => p c && sall p s' end.
Definition name_like (w : string) : Prop :=
  match w with String c s => id_head c = true /\ sall id_tail s = true | EmptyString => False end.
Definition path_like (w : string) : Prop :=
  match w with String c s => path_head c = true /\ sall path_tail s = true | EmptyString => False end /\
  (starts (Ascii.eqb "/") w = true \/ starts (Ascii.eqb ".") w = true \/ exists a b, w = a ++ "/" ++ b).
(** The content of a quoted value: does not contain the quote or a line end, is not empty
    and does not begin with a quote or a backslash. *)
Definition quotable (q : ascii) (body : string) : Prop :=
  (q = dquote \/ q = squote) /\ starts plain_first body = true /\ sall (plain_char q) body = true.
(** The readings of a text as a condition. *)
Definition cond_reads (s : string) (e : expr) : Prop := exists ts, lexes "" s ts /\ g_expr ts e.
(** The readings of a policy file's text. *)
Definition text_reads (t : option string) (ds : list decl) : Prop := exists s, t = Some s /\ reads s ds.
(** The declaration with the [append] field of a macro removed. *)
Definition without_append (d : decl) : decl := match d with DMacro x e _ => DMacro x e None | _ => d end.
