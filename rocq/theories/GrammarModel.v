(** * GrammarModel: core/policyengine/policy/falco/lang/Sfpl.g4, the grammar of Falco policies.

    The parser in lang/parser is generated by ANTLR from this grammar.  What is modelled is
    the grammar itself: which sequences of tokens have which parse trees.  The tree returned
    by the generated parser when it records no error is one of them (this is ANTLR's
    contract and is trusted); when a sequence has several, the model does not say which one
    ANTLR picks. *)
From Verif Require Import GoBase FalcoModel.

(** Sfpl.g4:3-21, 165-325: the kinds of tokens. *)
Inductive kind :=
| KRule | KFilter | KDrop | KMacro | KList | KName | KItems | KCond | KDesc | KActions | KOutput
| KPriority | KTags | KPrefilter | KEnabled | KWarn | KSkip | KAppend | KReq
| KAnd | KOr | KNot | KLt | KLe | KGt | KGe | KEq | KNeq | KIn | KContains | KIContains
| KStartswith | KEndswith | KPmatch | KExists | KLbrack | KRbrack | KLparen | KRparen | KListsep
| KDecl | KDef | KSeverity | KId | KNumber | KPath | KString | KTag | KWs | KNl | KComment | KAny.
Scheme Equality for kind.

(** A token of the default channel: its kind, its text and the hidden-channel text
    (white space and comments) between the previous token and it. *)
Record tok := mkTok { tk : kind; tx : string; hid : string }.

(** Sfpl.g4:124-132 [atom]: the literals '<' and '>' are the tokens LT and GT. *)
Definition is_atom (k : kind) : bool :=
  match k with KId | KPath | KNumber | KTag | KString | KLt | KGt => true | _ => false end.

(** Sfpl.g4:148-159 [binary_operator] *)
Definition binop_of (k : kind) : option binop :=
  match k with
  | KLt => Some BLt | KLe => Some BLe | KGt => Some BGt | KGe => Some BGe | KEq => Some BEq
  | KNeq => Some BNeq | KContains => Some BContains | KIContains => Some BIContains
  | KStartswith => Some BStartswith | KEndswith => Some BEndswith
  | _ => None
  end.

(** (atom (LISTSEP atom)* )? (LISTSEP)? RBRACK: the part of [items] (Sfpl.g4:84-86),
    [actions] (88-90) and [tags] (92-94) after the opening bracket. *)
Inductive g_atoms : list tok -> list string -> Prop :=
| g_atoms_one a : is_atom (tk a) = true -> g_atoms [a] [tx a]
| g_atoms_more a c ts l : is_atom (tk a) = true -> tk c = KListsep -> g_atoms ts l ->
    g_atoms (a :: c :: ts) (tx a :: l).
Inductive g_items : list tok -> items -> Prop :=
| g_items_empty l r : tk l = KLbrack -> tk r = KRbrack -> g_items [l; r] (mkItems [] false)
| g_items_sep l c r : tk l = KLbrack -> tk c = KListsep -> tk r = KRbrack ->
    g_items [l; c; r] (mkItems [] true)
| g_items_atoms l ts xs r : tk l = KLbrack -> g_atoms ts xs -> tk r = KRbrack ->
    g_items (l :: ts ++ [r]) (mkItems xs false)
| g_items_atoms_sep l ts xs c r : tk l = KLbrack -> g_atoms ts xs -> tk c = KListsep -> tk r = KRbrack ->
    g_items (l :: ts ++ [c; r]) (mkItems xs true).

(** (atom|items) (LISTSEP (atom|items))*: the arguments of in and pmatch (Sfpl.g4:80). *)
Inductive g_arg : list tok -> listarg -> Prop :=
| g_arg_atom a : is_atom (tk a) = true -> g_arg [a] (LAtom (tx a))
| g_arg_items ts it : g_items ts it -> g_arg ts (LItems it).
Inductive g_args : list tok -> list listarg -> Prop :=
| g_args_one ts a : g_arg ts a -> g_args ts [a]
| g_args_more ts a c ts' l : g_arg ts a -> tk c = KListsep -> g_args ts' l ->
    g_args (ts ++ c :: ts') (a :: l).

(** Sfpl.g4:63-82 [expression], [or_expression], [and_expression], [term]; 120-122
    [variable]; 161-163 [unary_operator]. *)
Inductive g_term : list tok -> term -> Prop :=
| g_var t : tk t = KId -> g_term [t] (TVar (tx t))
| g_not n ts t : tk n = KNot -> g_term ts t -> g_term (n :: ts) (TNot t)
| g_exists a o : is_atom (tk a) = true -> tk o = KExists -> g_term [a; o] (TExists (tx a))
| g_bin a o op b : is_atom (tk a) = true -> binop_of (tk o) = Some op -> is_atom (tk b) = true ->
    g_term [a; o; b] (TBin (tx a) op (tx b))
| g_in a o l ts args r : is_atom (tk a) = true -> tk o = KIn -> tk l = KLparen ->
    g_args ts args -> tk r = KRparen -> g_term (a :: o :: l :: ts ++ [r]) (TIn (tx a) args)
| g_pmatch a o l ts args r : is_atom (tk a) = true -> tk o = KPmatch -> tk l = KLparen ->
    g_args ts args -> tk r = KRparen -> g_term (a :: o :: l :: ts ++ [r]) (TPmatch (tx a) args)
| g_paren l ts e r : tk l = KLparen -> g_expr ts e -> tk r = KRparen -> g_term (l :: ts ++ [r]) (TParen e)
with g_and : list tok -> list term -> Prop :=
| g_and_one ts t : g_term ts t -> g_and ts [t]
| g_and_more ts t a ts' l : g_term ts t -> tk a = KAnd -> g_and ts' l -> g_and (ts ++ a :: ts') (t :: l)
with g_expr : list tok -> expr -> Prop :=
| g_or_one ts c : g_and ts c -> g_expr ts [c]
| g_or_more ts c o ts' e : g_and ts c -> tk o = KOr -> g_expr ts' e -> g_expr (ts ++ o :: ts') (c :: e).

(** Sfpl.g4:134-146 [text]: a run of any tokens but those spelled as one of these words. *)
Definition reserved_text (s : string) : bool :=
  existsb (seqb s)
    ["desc"; "condition"; "actions"; "output"; "priority"; "tags"; "prefilter"; "enabled";
     "warn_evttypes"; "skip-if-unknown-filter"; "append"]%string.
(** compiler.go:179-184 [getOffChannelText]: the input from the first character of the first
    token to the last character of the last one, hidden text in between included. *)
Definition source_tail (ts : list tok) : string :=
  fold_right (fun t s => (hid t ++ tx t ++ s)%string) EmptyString ts.
Definition source_text (ts : list tok) : string :=
  match ts with [] => EmptyString | t :: ts' => (tx t ++ source_tail ts')%string end.
Inductive g_text : list tok -> string -> Prop :=
| g_text_run ts : ts <> [] -> Forall (fun t => reserved_text (tx t) = false) ts ->
    g_text ts (source_text ts).

(** Sfpl.g4:32: one option of a rule, 88-118 [actions], [tags], [prefilter], [severity],
    [enabled], [warnevttype], [skipunknown]. *)
Inductive g_opt : list tok -> ropt -> Prop :=
| g_output o d ts s : tk o = KOutput -> tk d = KDef -> g_text ts s -> g_opt (o :: d :: ts) (OOutput s)
| g_actions o d ts it : tk o = KActions -> tk d = KDef -> g_items ts it -> g_opt (o :: d :: ts) (OActions it)
| g_priority o d s : tk o = KPriority -> tk d = KDef -> tk s = KSeverity -> g_opt [o; d; s] (OPriority (tx s))
| g_tags o d ts it : tk o = KTags -> tk d = KDef -> g_items ts it -> g_opt (o :: d :: ts) (OTags it)
| g_prefilter o d ts it : tk o = KPrefilter -> tk d = KDef -> g_items ts it -> g_opt (o :: d :: ts) (OPrefilter it)
| g_enabled o d a : tk o = KEnabled -> tk d = KDef -> is_atom (tk a) = true -> g_opt [o; d; a] (OEnabled (tx a))
| g_warn o d a : tk o = KWarn -> tk d = KDef -> is_atom (tk a) = true -> g_opt [o; d; a] (OWarn (tx a))
| g_skip o d a : tk o = KSkip -> tk d = KDef -> is_atom (tk a) = true -> g_opt [o; d; a] (OSkip (tx a)).
Inductive g_opts : list tok -> list ropt -> Prop :=
| g_opts_nil : g_opts [] []
| g_opts_cons ts o ts' l : g_opt ts o -> g_opts ts' l -> g_opts (ts ++ ts') (o :: l).

(** Sfpl.g4:31-61 [prule] ([srule] is the same), [pfilter] ([sfilter]), [drop_keyword],
    [pmacro], [plist], [preq]. *)
Inductive g_decl : list tok -> decl -> Prop :=
| g_rule k r d1 n name d d2 n' desc c d3 ce e os opts :
    tk k = KDecl -> tk r = KRule -> tk d1 = KDef -> g_text n name ->
    tk d = KDesc -> tk d2 = KDef -> g_text n' desc ->
    tk c = KCond -> tk d3 = KDef -> g_expr ce e -> g_opts os opts ->
    g_decl (k :: r :: d1 :: n ++ d :: d2 :: n' ++ c :: d3 :: ce ++ os) (DRule (mkRuleDecl name desc e opts))
| g_filter k f d1 x c d2 ce e :
    tk k = KDecl -> tk f = KDrop \/ tk f = KFilter -> tk d1 = KDef -> tk x = KId ->
    tk c = KCond -> tk d2 = KDef -> g_expr ce e ->
    g_decl (k :: f :: d1 :: x :: c :: d2 :: ce) (DFilter (mkFilterDecl (tx x) e None))
| g_filter_enabled k f d1 x c d2 ce e en d3 a :
    tk k = KDecl -> tk f = KDrop \/ tk f = KFilter -> tk d1 = KDef -> tk x = KId ->
    tk c = KCond -> tk d2 = KDef -> g_expr ce e ->
    tk en = KEnabled -> tk d3 = KDef -> is_atom (tk a) = true ->
    g_decl (k :: f :: d1 :: x :: c :: d2 :: ce ++ [en; d3; a]) (DFilter (mkFilterDecl (tx x) e (Some (tx a))))
| g_macro k m d1 x c d2 ce e :
    tk k = KDecl -> tk m = KMacro -> tk d1 = KDef -> tk x = KId ->
    tk c = KCond -> tk d2 = KDef -> g_expr ce e ->
    g_decl (k :: m :: d1 :: x :: c :: d2 :: ce) (DMacro (tx x) e None)
| g_macro_append k m d1 x c d2 ce e ap d3 a :
    tk k = KDecl -> tk m = KMacro -> tk d1 = KDef -> tk x = KId ->
    tk c = KCond -> tk d2 = KDef -> g_expr ce e ->
    tk ap = KAppend -> tk d3 = KDef -> is_atom (tk a) = true ->
    g_decl (k :: m :: d1 :: x :: c :: d2 :: ce ++ [ap; d3; a]) (DMacro (tx x) e (Some (tx a)))
| g_list k l d1 x i d2 ts it :
    tk k = KDecl -> tk l = KList -> tk d1 = KDef -> tk x = KId ->
    tk i = KItems -> tk d2 = KDef -> g_items ts it ->
    g_decl (k :: l :: d1 :: x :: i :: d2 :: ts) (DList (tx x) it)
| g_req k q d1 a :
    tk k = KDecl -> tk q = KReq -> tk d1 = KDef -> is_atom (tk a) = true ->
    g_decl [k; q; d1; a] (DReq (tx a)).

(** Sfpl.g4:27-29 [defs]: any number of declarations up to the end of the file. *)
Inductive g_defs : list tok -> list decl -> Prop :=
| g_defs_nil : g_defs [] []
| g_defs_cons ts d ts' ds : g_decl ts d -> g_defs ts' ds -> g_defs (ts ++ ts') (d :: ds).
(** Sfpl.g4:23-25 [policy]: at least one declaration. *)
Definition g_policy (ts : list tok) (ds : list decl) : Prop := g_defs ts ds /\ ds <> [].
