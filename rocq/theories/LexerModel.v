(** * LexerModel: core/policyengine/policy/falco/lang/Sfpl.g4, the lexical rules.

    ANTLR's lexer takes, at each point of the input, the longest text that some rule
    matches and, among the rules matching that text, the first in the file; it is trusted
    to do that.  Simplification: [STRING] (Sfpl.g4:292-297) is recursive and non-greedy; it
    is modelled for literals whose content is non-empty and begins neither with a quote nor
    with a backslash (there the nested alternatives are dead and the literal ends at the
    first closing quote).  A text in which a quote is directly followed by a quote or a
    backslash, or a backslash by a double quote, at a place where a token starts, is outside
    the model ([odd_quote]).  The input is a sequence of bytes. *)
From Verif Require Import GoBase FalcoModel GrammarModel.

(** Regular expressions and the strings they match. *)
Inductive re :=
| RNone | REps | RCls (p : ascii -> bool) | RSeq (a b : re) | RAlt (a b : re) | RStar (a : re).
Inductive matches : re -> string -> Prop :=
| m_eps : matches REps ""
| m_cls p c : p c = true -> matches (RCls p) (String c "")
| m_seq a b s t : matches a s -> matches b t -> matches (RSeq a b) (s ++ t)
| m_alt_l a b s : matches a s -> matches (RAlt a b) s
| m_alt_r a b s : matches b s -> matches (RAlt a b) s
| m_star_nil a : matches (RStar a) ""
| m_star_cons a s t : matches a s -> matches (RStar a) t -> matches (RStar a) (s ++ t).

Definition in_range (a b c : ascii) : bool := (nat_of_ascii a <=? nat_of_ascii c) && (nat_of_ascii c <=? nat_of_ascii b).
Definition alnum (c : ascii) : bool :=
  in_range "a" "z" c || in_range "A" "Z" c || in_range "0" "9" c.
Definition digit (c : ascii) : bool := in_range "0" "9" c.
Definition ch (x : ascii) : re := RCls (Ascii.eqb x).
Fixpoint lit (s : string) : re :=
  match s with EmptyString => REps | String c s' => RSeq (ch c) (lit s') end.
Definition plus (a : re) : re := RSeq a (RStar a).
Definition opt (a : re) : re := RAlt a REps.
Definition upper (c : ascii) : ascii :=
  if in_range "a" "z" c then ascii_of_nat (nat_of_ascii c - 32) else c.
(** Sfpl.g4:324-349: one letter in either case. *)
Fixpoint nocase (s : string) : re :=
  match s with
  | EmptyString => REps
  | String c s' => RSeq (RCls (fun x => Ascii.eqb x c || Ascii.eqb x (upper c))) (nocase s')
  end.
Fixpoint alts (l : list re) : re := match l with [] => RNone | a :: l' => RAlt a (alts l') end.

Definition chr (n : nat) : ascii := ascii_of_nat n.
Definition is_eol (c : ascii) : bool := Ascii.eqb c (chr 10) || Ascii.eqb c (chr 13).
(** Sfpl.g4:310-312 [WS]: blank, tab, CR, LF, form feed. *)
Definition is_ws (c : ascii) : bool :=
  Ascii.eqb c " " || Ascii.eqb c (chr 9) || is_eol c || Ascii.eqb c (chr 12).

(** Sfpl.g4:284-286 [NUMBER] *)
Definition r_number : re := RSeq (plus (RCls digit)) (opt (RSeq (ch ".") (plus (RCls digit)))).
(** Sfpl.g4:288-290 [PATH] *)
Definition path_head (c : ascii) : bool := alnum c || Ascii.eqb c "/" || Ascii.eqb c ".".
Definition path_tail (c : ascii) : bool :=
  alnum c || Ascii.eqb c "_" || Ascii.eqb c "-" || Ascii.eqb c "." || Ascii.eqb c "/" || Ascii.eqb c "*".
Definition r_path : re := RSeq (RCls path_head) (RStar (RCls path_tail)).
(** Sfpl.g4:280-282 [ID] *)
Definition id_head (c : ascii) : bool := alnum c || Ascii.eqb c "_".
Definition id_tail (c : ascii) : bool :=
  alnum c || Ascii.eqb c "_" || Ascii.eqb c "-" || Ascii.eqb c "." || Ascii.eqb c "*".
Definition r_index : re :=
  RSeq (opt (ch ":")) (RSeq (ch "[") (RSeq (RAlt r_number r_path)
    (RSeq (RStar (RSeq (ch ":") r_path)) (ch "]")))).
Definition r_id : re := RSeq (RCls id_head) (RStar (RAlt (RCls id_tail) r_index)).
(** Sfpl.g4:299-301 [TAG] *)
Definition r_tag : re := RSeq r_id (RSeq (ch ":") r_id).
(** Sfpl.g4:292-297 [STRING], for the literals in the model *)
Definition dquote : ascii := chr 34.
Definition squote : ascii := chr 39.
Definition backslash : ascii := chr 92.
Definition plain_first (c : ascii) : bool :=
  negb (Ascii.eqb c dquote) && negb (Ascii.eqb c squote) && negb (Ascii.eqb c backslash) && negb (is_eol c).
Definition plain_char (q c : ascii) : bool := negb (Ascii.eqb c q) && negb (is_eol c).
Definition r_quoted (q : ascii) : re :=
  RSeq (ch q) (RSeq (RCls plain_first) (RSeq (RStar (RCls (plain_char q))) (ch q))).
Definition r_string : re := RAlt (r_quoted dquote) (r_quoted squote).
(** Sfpl.g4:257-278 [SEVERITY]; the rules SFSEVERITY and FSEVERITY after it match nothing
    that SEVERITY does not and are left out. *)
Definition r_severity : re :=
  alts (map nocase ["high"; "medium"; "low"; "emergency"; "alert"; "critical"; "error"; "warning"; "notice";
                    "info"; "informational"; "debug"]%string).
(** Sfpl.g4:253-255 [DEF] *)
Definition r_def : re := RSeq (ch ":") (opt (RSeq (RStar (ch " ")) (ch ">"))).

(** The lexical rules in the order of the file. *)
Definition rules : list (kind * re) :=
  [(KRule, lit "rule"); (KFilter, lit "filter"); (KDrop, lit "drop"); (KMacro, lit "macro"); (KList, lit "list");
   (KName, lit "name"); (KItems, lit "items"); (KCond, lit "condition"); (KDesc, lit "desc");
   (KActions, lit "actions"); (KOutput, lit "output"); (KPriority, lit "priority"); (KTags, lit "tags");
   (KPrefilter, lit "prefilter"); (KEnabled, lit "enabled"); (KWarn, lit "warn_evttypes");
   (KSkip, lit "skip-if-unknown-filter"); (KAppend, lit "append"); (KReq, lit "required_engine_version");
   (KAnd, lit "and"); (KOr, lit "or"); (KNot, lit "not"); (KLt, lit "<"); (KLe, lit "<="); (KGt, lit ">");
   (KGe, lit ">="); (KEq, lit "="); (KNeq, lit "!="); (KIn, lit "in"); (KContains, lit "contains");
   (KIContains, lit "icontains"); (KStartswith, lit "startswith"); (KEndswith, lit "endswith");
   (KPmatch, lit "pmatch"); (KExists, lit "exists"); (KLbrack, lit "["); (KRbrack, lit "]"); (KLparen, lit "(");
   (KRparen, lit ")"); (KListsep, lit ","); (KDecl, lit "-"); (KDef, r_def); (KSeverity, r_severity);
   (KId, r_id); (KNumber, r_number); (KPath, r_path); (KString, r_string); (KTag, r_tag);
   (KWs, plus (RCls is_ws));                                                    (* 310-312 *)
   (KNl, RSeq (opt (ch (chr 13))) (ch (chr 10)));                               (* 314-316 *)
   (KComment, RSeq (ch "#") (RStar (RCls (fun c => negb (is_eol c)))));         (* 318-320 *)
   (KAny, RCls (fun _ => true))]%string.                                        (* 322 *)

(** [first_rule l w k]: [k] is the first rule of [l] that matches the whole text [w]. *)
Inductive first_rule : list (kind * re) -> string -> kind -> Prop :=
| fr_here k r l w : matches r w -> first_rule ((k, r) :: l) w k
| fr_later k' r l w k : ~ matches r w -> first_rule l w k -> first_rule ((k', r) :: l) w k.
(** [token_at s n k]: the token at the start of [s] has length [n] and kind [k]. *)
Definition token_at (s : string) (n : nat) (k : kind) : Prop :=
  0 < n <= slen s /\ first_rule rules (stake n s) k /\
  forall m k' r, n < m <= slen s -> In (k', r) rules -> ~ matches r (stake m s).

(** Quotes outside the model, see above. *)
Definition odd_quote (s : string) : bool :=
  match s with
  | String c (String d _) =>
      ((Ascii.eqb c dquote || Ascii.eqb c squote) &&
       (Ascii.eqb d dquote || Ascii.eqb d squote || Ascii.eqb d backslash))
      || (Ascii.eqb c backslash && Ascii.eqb d dquote)
  | _ => false
  end.
(** Sfpl.g4:311, 315, 319: [-> channel(HIDDEN)] *)
Definition hidden (k : kind) : bool := match k with KWs | KNl | KComment => true | _ => false end.

(** [lexes h s ts]: the input [s], preceded by the hidden text [h] since the last visible
    token, is cut into the visible tokens [ts]. *)
Inductive lexes : string -> string -> list tok -> Prop :=
| lx_end h : lexes h "" []
| lx_hidden h s n k ts : odd_quote s = false -> token_at s n k -> hidden k = true ->
    lexes (h ++ stake n s) (sdrop n s) ts -> lexes h s ts
| lx_visible h s n k ts : odd_quote s = false -> token_at s n k -> hidden k = false ->
    lexes "" (sdrop n s) ts -> lexes h s (mkTok k (stake n s) h :: ts).

(** compiler.go:69-118: reading a policy text that gives no error. *)
Definition reads (s : string) (ds : list decl) : Prop := exists ts, lexes "" s ts /\ g_policy ts ds.
(** compiler.go:69-118: what compiling a policy file with text [t] ([None]: cannot be read) works on;
    with errors the parser's recovered tree may be anything. *)
Definition parsed (t : option string) (f : file) : Prop :=
  match t, f with
  | None, None => True
  | Some s, Some (ds, false) => reads s ds
  | Some _, Some (_, true) => True
  | _, _ => False
  end.
