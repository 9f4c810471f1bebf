(** * SpecGrammar: reading a condition, and what a policy text must satisfy to have one reading. *)
From Verif Require Import GoBase FalcoModel SpecFalco GrammarModel.

(** The spelling of the words and signs that have one. *)
Definition word_of (k : kind) : option string :=
  match k with
  | KRule => Some "rule" | KFilter => Some "filter" | KDrop => Some "drop" | KMacro => Some "macro"
  | KList => Some "list" | KName => Some "name" | KItems => Some "items" | KCond => Some "condition"
  | KDesc => Some "desc" | KActions => Some "actions" | KOutput => Some "output"
  | KPriority => Some "priority" | KTags => Some "tags" | KPrefilter => Some "prefilter"
  | KEnabled => Some "enabled" | KWarn => Some "warn_evttypes" | KSkip => Some "skip-if-unknown-filter"
  | KAppend => Some "append" | KReq => Some "required_engine_version"
  | KAnd => Some "and" | KOr => Some "or" | KNot => Some "not" | KLt => Some "<" | KLe => Some "<="
  | KGt => Some ">" | KGe => Some ">=" | KEq => Some "=" | KNeq => Some "!=" | KIn => Some "in"
  | KContains => Some "contains" | KIContains => Some "icontains" | KStartswith => Some "startswith"
  | KEndswith => Some "endswith" | KPmatch => Some "pmatch" | KExists => Some "exists"
  | KLbrack => Some "[" | KRbrack => Some "]" | KLparen => Some "(" | KRparen => Some ")"
  | KListsep => Some "," | KDecl => Some "-"
  | _ => None
  end%string.
(** The kind of a token agrees with its spelling. *)
Definition spelled (t : tok) : Prop := forall k w, word_of k = Some w -> (tk t = k <-> tx t = w).

(** The text of every [output] field ends at another field (or at the end of the file)
    before the next '-'. *)
Definition outputs_closed (ts : list tok) : Prop :=
  forall a o b1 d b2, ts = a ++ o :: b1 ++ d :: b2 -> tk o = KOutput -> tk d = KDecl ->
    exists t, In t b1 /\ reserved_text (tx t) = true.

(** ** Boolean formulas over basic tests. *)
Inductive bform :=
| FTest (ts : list tok)
| FNot (f : bform)
| FAnd (f g : bform)
| FOr (f g : bform).

Section Sem.
(** The truth of a basic test given by its tokens. *)
Variable test : list tok -> bool -> Prop.
Inductive holds : bform -> bool -> Prop :=
| h_test ts v : test ts v -> holds (FTest ts) v
| h_not f v : holds f v -> holds (FNot f) (negb v)
| h_and f g v w : holds f v -> holds g w -> holds (FAnd f g) (v && w)
| h_or f g v w : holds f v -> holds g w -> holds (FOr f g) (v || w).
End Sem.

(** ** Writing a formula: [not] binds tightest, then [and], then [or]; parentheses are
    written only around a formula whose operator binds less than its context. *)
Section Print.
Variables lpar rpar nott andt ort : tok.
(** [prec]: 0 for a disjunction, 1 for a conjunction, 2 for a term. *)
Definition paren (b : bool) (ts : list tok) : list tok := if b then lpar :: ts ++ [rpar] else ts.
Fixpoint write (ctx : nat) (f : bform) : list tok :=
  match f with
  | FTest ts => ts
  | FNot g => nott :: write 2 g
  | FAnd g h => paren (1 <? ctx) (write 1 g ++ andt :: write 1 h)
  | FOr g h => paren (0 <? ctx) (write 0 g ++ ort :: write 0 h)
  end.
End Print.

(** The tokens of one basic test: a macro name, or an atom with its operator. *)
Definition basic (ts : list tok) : Prop :=
  exists t, g_term ts t /\ match t with TNot _ | TParen _ => False | _ => True end.
Fixpoint tests_ok (f : bform) : Prop :=
  match f with
  | FTest ts => basic ts
  | FNot g => tests_ok g
  | FAnd g h | FOr g h => tests_ok g /\ tests_ok h
  end.
(** The truth of a basic test standing alone. *)
Definition test_value macros lists A (ts : list tok) (v : bool) : Prop :=
  exists t, g_term ts t /\ tv macros lists A t v.
