(** * FalcoModel: core/policyengine/policy/falco/compiler.go over parse trees.

    The model starts from the parse tree; which trees a text has is the subject of
    [GrammarModel] and [LexerModel] (lang/Sfpl.g4).  An atom, ID or severity is its text
    (GetText).  Policies are compiled against any [operations R]. *)
From Verif Require Import GoBase Predicates.

(** Sfpl.g4 [binary_operator] *)
Inductive binop := BLt | BLe | BGt | BGe | BEq | BNeq | BContains | BIContains | BStartswith | BEndswith.

(** Sfpl.g4 [items], [actions], [tags]: the atoms and whether a trailing comma follows. *)
Record items := mkItems { it_atoms : list string; it_trail : bool }.
(** GetText of an [items] node: the token texts without white space. *)
Definition items_text (it : items) : string :=
  ("[" ++ join "," (it_atoms it) ++ (if it_trail it then "," else "") ++ "]")%string.

(** Sfpl.g4 [term]: the argument of in/pmatch is an atom or an items node. *)
Inductive listarg := LAtom (s : string) | LItems (it : items).
Inductive term :=
| TVar (x : string)
| TNot (t : term)
| TExists (a : string)
| TBin (l : string) (op : binop) (r : string)
| TIn (l : string) (args : list listarg)
| TPmatch (l : string) (args : list listarg)
| TParen (e : list (list term)).
(** Sfpl.g4 [expression] / [or_expression] / [and_expression]: a disjunction of
    conjunctions of terms (the OR and AND tokens have no children and are skipped,
    compiler.go:301, 304-305). *)
Definition expr := list (list term).

(** Sfpl.g4 [prule]: the options may come in any order and number; the accessors
    [ctx.X(0)] take the first of each kind. *)
Inductive ropt :=
| OOutput (s : string) | OActions (it : items) | OPriority (s : string) | OTags (it : items)
| OPrefilter (it : items) | OEnabled (s : string) | OWarn (s : string) | OSkip (s : string).
Record ruledecl := mkRuleDecl { rd_name : string; rd_desc : string; rd_cond : expr; rd_opts : list ropt }.
(** Sfpl.g4 [pfilter] *)
Record filterdecl := mkFilterDecl { fd_name : string; fd_cond : expr; fd_enabled : option string }.
(** Sfpl.g4 [policy] *)
Inductive decl :=
| DRule (d : ruledecl) | DFilter (d : filterdecl)
| DMacro (x : string) (e : expr) (append : option string)
| DList (x : string) (it : items)
| DReq (v : string).

(** What reading and parsing one file gives: [None] when it cannot be opened, otherwise the
    tree and whether the lexer or the parser recorded an error. *)
Definition file := option (list decl * bool).

(** compiler.go:248-254 [extractList]: the regular expression of line 39 matches from a
    leading '[' to the last ']' (greedy); both brackets are removed.  [split_last] cuts at
    the last ']'. *)
Fixpoint split_last (c : ascii) (s : string) : option (string * string) :=
  match s with
  | EmptyString => None
  | String a s' =>
      match split_last c s' with
      | Some (b, e) => Some (String a b, e)
      | None => if Ascii.eqb a c then Some (EmptyString, s') else None
      end
  end.
Definition strip_brackets (s : string) : string :=
  match s with
  | String a s' =>
      if Ascii.eqb a "["%char then
        match split_last "]"%char s' with
        | Some (b, e) => (b ++ e)%string
        | None => s
        end
      else s
  | EmptyString => s
  end.
Definition extract_list (s : string) : list string :=
  map trim_bounding_quotes (split_on ","%char (strip_brackets s)).

(** compiler.go:256-261, 263-275 *)
Definition extract_items (it : items) : list string := extract_list (items_text it).

Fixpoint rmap {A B} (f : A -> res B) (l : list A) : res (list B) :=
  match l with
  | [] => Ok []
  | a :: l' => let* b := f a in let* bs := rmap f l' in Ok (b :: bs)
  end.

Section Compiler.
Context {R : Type}.
Variable ops : operations R.

(** compiler.go:285-295 [reduceList]; the recursion follows list references and so needs
    fuel: with a cyclic definition the Go code overflows its stack. *)
Fixpoint reduce_list (n : nat) (lists : gomap (list string)) (s : string) : res (list string) :=
  match n with
  | O => NoFuel
  | S n' => match mget s lists with
            | Some l => let* ls := rmap (reduce_list n' lists) l in Ok (concat ls)
            | None => Ok [trim_bounding_quotes s]
            end
  end.

(** compiler.go:359-361, 277-283: only the atoms among the arguments ([AllAtom()[1:]]). *)
Fixpoint arg_atoms (args : list listarg) : list string :=
  match args with
  | [] => []
  | LAtom s :: args' => s :: arg_atoms args'
  | LItems _ :: args' => arg_atoms args'
  end.
Definition extract_list_from_atoms (n : nat) (lists : gomap (list string)) (l : list string) : res (list string) :=
  let* ls := rmap (reduce_list n lists) l in Ok (concat ls).

(** compiler.go:334-354 *)
Definition first_of (x : res (criterion R * bool)) : res (criterion R) := let* y := x in c_first y.
Definition compile_bin (l : string) (op : binop) (r : string) : res (criterion R) :=
  match op with
  | BContains => first_of (op_compare ops l r OpContains)
  | BIContains => first_of (op_compare ops l r OpIContains)
  | BStartswith => first_of (op_compare ops l r OpStartswith)
  | BEndswith => first_of (op_compare ops l r OpEndswith)
  | BEq => first_of (op_compare ops l r OpEq)
  | BNeq => let* c := first_of (op_compare ops l r OpEq) in Ok (c_not c)
  | BGt => first_of (op_compare ops l r OpGt)
  | BGe => first_of (op_compare ops l r OpGEq)
  | BLt => first_of (op_compare ops l r OpLt)
  | BLe => first_of (op_compare ops l r OpLEq)
  end.

(** compiler.go:297-314 [visitExpression] *)
Definition visit_expr_with (vt : term -> res (criterion R)) (e : expr) : res (criterion R) :=
  let* ors := rmap (fun conj => let* cs := rmap vt conj in Ok (c_all cs)) e in
  Ok (c_any ors).

(** compiler.go:316-370 [visitTerm]; macro references make the recursion need fuel. *)
Fixpoint visit_term (n : nat) (macros : gomap expr) (lists : gomap (list string)) (t : term) : res (criterion R) :=
  match n with
  | O => NoFuel
  | S n' =>
      match t with
      | TVar x => match mget x macros with
                  | Some m => visit_expr_with (visit_term n' macros lists) m
                  | None => Ok c_false
                  end
      | TNot t' => let* c := visit_term n' macros lists t' in Ok (c_not c)
      | TExists a => first_of (op_exists ops a)
      | TBin l op r => compile_bin l op r
      | TParen e => visit_expr_with (visit_term n' macros lists) e
      | TIn l args => let* items := extract_list_from_atoms n' lists (arg_atoms args) in
                      first_of (op_foldany ops l items OpEq)
      | TPmatch l args => let* items := extract_list_from_atoms n' lists (arg_atoms args) in
                          first_of (op_foldany ops l items OpContains)
      end
  end.
Definition visit_expr (n : nat) (macros : gomap expr) (lists : gomap (list string)) (e : expr) : res (criterion R) :=
  visit_expr_with (visit_term n macros lists) e.

(** compiler.go:170-177 *)
Definition enabled_flag (s : string) : bool :=
  match parse_bool (trim_bounding_quotes s) with Some b => b | None => true end.

Fixpoint first_opt {A} (f : ropt -> option A) (l : list ropt) : option A :=
  match l with
  | [] => None
  | o :: l' => match f o with Some a => Some a | None => first_opt f l' end
  end.
Definition get_tags (l : list ropt) : list tag :=                       (* 186-193 *)
  match first_opt (fun o => match o with OTags it => Some it | _ => None end) l with
  | Some it => [TagList (extract_items it)] | None => []
  end.
Definition get_prefilter (l : list ropt) : list string :=               (* 195-202 *)
  match first_opt (fun o => match o with OPrefilter it => Some it | _ => None end) l with
  | Some it => extract_items it | None => []
  end.
Definition get_actions (l : list ropt) : list string :=                 (* 239-246 *)
  match first_opt (fun o => match o with OActions it => Some it | _ => None end) l with
  | Some it => extract_items it | None => []
  end.
(** compiler.go:205-237 *)
Definition severity_priority (p : string) : priority :=
  let w := to_lower p in
  if seqb w (prio_string PLow) then PLow else if seqb w (prio_string PMedium) then PMedium else if seqb w (prio_string PHigh) then PHigh
  else if seqb w "debug" then PLow else if seqb w "info" then PLow
  else if seqb w "informational" then PLow else if seqb w "notice" then PLow
  else if seqb w "warning" then PMedium else if seqb w "error" then PHigh
  else if seqb w "critical" then PHigh else if seqb w "emergency" then PHigh
  else PLow.
Definition get_priority (l : list ropt) : priority :=
  match first_opt (fun o => match o with OPriority s => Some s | _ => None end) l with
  | Some s => severity_priority s | None => PLow
  end.
Definition get_enabled (l : list ropt) : bool :=                        (* 165 *)
  match first_opt (fun o => match o with OEnabled s => Some s | _ => None end) l with
  | Some s => enabled_flag s | None => true
  end.

(** compiler.go:46-54: the compiler's state. *)
Record cstate := mkCState {
  cs_rules : list (rule R); cs_filters : list (filter R);
  cs_lists : gomap (list string); cs_macros : gomap expr }.
Definition cstate0 : cstate := mkCState [] [] [] [].

(** compiler.go:90-92: the walk over [defs] calls only ExitPmacro and ExitPlist (the other
    productions are named srule and sfilter there). *)
Definition def_step (st : cstate) (d : decl) : cstate :=
  match d with
  | DMacro x e _ => mkCState (cs_rules st) (cs_filters st) (cs_lists st) (mset x e (cs_macros st))
  | DList x it => mkCState (cs_rules st) (cs_filters st) (mset x (extract_items it) (cs_lists st)) (cs_macros st)
  | _ => st
  end.

(** compiler.go:132-168: the walk over [policy]. *)
Definition policy_step (n : nat) (st : cstate) (d : decl) : res cstate :=
  match d with
  | DRule d =>
      let* c := visit_expr n (cs_macros st) (cs_lists st) (rd_cond d) in
      let r := mkRule (rd_name d) (rd_desc d) c (get_actions (rd_opts d)) (get_tags (rd_opts d))
                      (get_priority (rd_opts d)) (get_prefilter (rd_opts d)) (get_enabled (rd_opts d)) in
      Ok (mkCState (cs_rules st ++ [r]) (cs_filters st) (cs_lists st) (cs_macros st))
  | DFilter d =>
      let* c := visit_expr n (cs_macros st) (cs_lists st) (fd_cond d) in
      let f := mkFilter (fd_name d) c (match fd_enabled d with None => true | Some s => enabled_flag s end) in
      Ok (mkCState (cs_rules st) (cs_filters st ++ [f]) (cs_lists st) (cs_macros st))
  | _ => Ok (def_step st d)
  end.
Fixpoint policy_walk (n : nat) (st : cstate) (ds : list decl) : res cstate :=
  match ds with
  | [] => Ok st
  | d :: ds' => let* st' := policy_step n st d in policy_walk n st' ds'
  end.

(** compiler.go:69-118 [compile]: the new state and whether an error is returned. *)
Definition compile_file (n : nat) (st : cstate) (f : file) : res (cstate * bool) :=
  match f with
  | None => Ok (st, true)
  | Some (ds, errs) =>
      let* st' := policy_walk n (fold_left def_step ds st) ds in
      Ok (st', errs)
  end.

(** compiler.go:121-129 [Compile]: [None] is (nil, nil, err). *)
Fixpoint compile_files (n : nat) (st : cstate) (fs : list file) : res (option (list (rule R) * list (filter R))) :=
  match fs with
  | [] => Ok (Some (cs_rules st, cs_filters st))
  | f :: fs' =>
      let* (st', err) := compile_file n st f in
      if err then Ok None else compile_files n st' fs'
  end.
Definition compile (n : nat) (fs : list file) := compile_files n cstate0 fs.
End Compiler.
Arguments cstate R : clear implicits.
