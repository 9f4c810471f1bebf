(** * RecoverModel: the Falco compiler on the trees ANTLR leaves behind after syntax errors.

    compiler.go:87-118 walks the trees before it looks at the errors the lexer and the parser recorded, and the generated
    parser (lang/parser/sfpl_parser.go) recovers from errors: a rule function that meets one reports it and returns with the
    children it has added so far.  So the listener of compiler.go is called on contexts some of whose parts are missing; the
    accessors of such parts return nil.  [FalcoModel] is the special case without missing parts. *)
From Verif Require Import GoBase Predicates FalcoModel GrammarModel.

(** A TermContext: its text, whether it has a variable, the NOT token (and the term after it), a unary operator (is it EXISTS),
    a binary operator (which), an expression, the tokens IN and PMATCH, and its atoms.
    An ExpressionContext: its or_expression, if the first child is one; the children of that that have children
    (and_expressions) or not, and of these the terms ([None]: a token or an error node). *)
Inductive pterm :=
| PTerm (text : string) (var : bool) (neg : option (option pterm)) (un : option bool) (bin : option (option binop))
        (ex : option pexpr) (isin ispm : bool) (atoms : list string)
with pexpr := PExpr (ors : option (list (list (option pterm)))).

(** The options of a rule as the accessors with index 0 give them (compiler.go:157-246): texts, or nil; for [enabled], whether
    the token is there and the text of its value. *)
Record popts := mkPOpts { po_actions : option string; po_tags : option string; po_severity : option string; po_prefilter : option string;
  po_enabled : option (option string) }.
(** Declarations: Text(0) and Text(1) of a rule, ID and Expression of the others; [POther]: contexts without an Exit method in
    compiler.go (preq, and srule and sfilter of the first walk). *)
Inductive pdecl :=
| PRule (name desc : option string) (cond : option pexpr) (o : popts)
| PFilter (id : option string) (cond : option pexpr) (enabled : option (option string))
| PMacro (id : option string) (cond : option pexpr)
| PList (id : option string) (its : option string)
| POther.
(** A file: unreadable, or the trees of p.Defs() and p.Policy() and whether errors were recorded. *)
Definition pfile := option (list pdecl * list pdecl * bool).

(** A method call on a nil interface. *)
Definition deref {A} (o : option A) : res A := match o with Some a => Ok a | None => Panic end.
Fixpoint somes {A} (l : list (option A)) : list A := match l with [] => [] | Some a :: l' => a :: somes l' | None :: l' => somes l' end.

Section Compiler.
Context {R : Type}.
Variable ops : operations R.

(** compiler.go:297-314 [visitExpression]: nil, or a first child that is no or_expression, panics; and_expressions without
    children are skipped, as are children of an and_expression that are not terms. *)
Definition visit_pexpr_with (vt : pterm -> res (criterion R)) (o : option pexpr) : res (criterion R) :=
  let* e := deref o in
  match e with
  | PExpr None => Panic
  | PExpr (Some ors) =>
      let* cs := rmap (fun conj => let* cs := rmap vt (somes conj) in Ok (c_all cs)) (List.filter (fun c => match c with [] => false | _ => true end) ors) in
      Ok (c_any cs)
  end.
(** compiler.go:316-370 [visitTerm], branch by branch; Atom(0), Atom(1) and AllAtom()[1:] panic on missing atoms. *)
Fixpoint visit_pterm (n : nat) (macros : gomap (option pexpr)) (lists : gomap (list string)) (t : pterm) : res (criterion R) :=
  match n with
  | O => NoFuel
  | S n' =>
      let 'PTerm text var neg un bin ex isin ispm atoms := t in
      if var then match mget text macros with
                  | Some m => visit_pexpr_with (visit_pterm n' macros lists) m
                  | None => Ok c_false
                  end
      else match neg with
      | Some o => let* t' := deref o in let* c := visit_pterm n' macros lists t' in Ok (c_not c)
      | None => match un with
      | Some b => let* lop := deref (nth_error atoms 0) in if b then first_of (op_exists ops lop) else Ok c_false
      | None => match bin with
      | Some ob => let* lop := deref (nth_error atoms 0) in let* rop := deref (nth_error atoms 1) in
                   match ob with Some op => compile_bin ops lop op rop | None => Ok c_false end
      | None => match ex with
      | Some e => visit_pexpr_with (visit_pterm n' macros lists) (Some e)
      | None =>
          if isin || ispm then
            let* lop := deref (nth_error atoms 0) in
            let* items := extract_list_from_atoms n' lists (tl atoms) in
            first_of (op_foldany ops lop items (if isin then OpEq else OpContains))
          else Ok c_false
      end end end end
  end.
Definition visit_pexpr (n : nat) (macros : gomap (option pexpr)) (lists : gomap (list string)) (o : option pexpr) : res (criterion R) :=
  visit_pexpr_with (visit_pterm n macros lists) o.

Record pstate := mkPState { ps_rules : list (rule R); ps_filters : list (filter R); ps_lists : gomap (list string); ps_macros : gomap (option pexpr) }.
Definition pstate0 : pstate := mkPState [] [] [] [].
Definition p_enabled (o : option (option string)) : res bool :=
  match o with None => Ok true | Some v => let* s := deref v in Ok (enabled_flag s) end.
Definition texts_of (o : option string) : list string := match o with Some s => extract_list s | None => [] end.
(** compiler.go:132-168; [ID().GetText()] and [getOffChannelText(nil)] panic. *)
Definition p_step (n : nat) (st : pstate) (d : pdecl) : res pstate :=
  match d with
  | PRule name desc cond o =>
      let* nm := deref name in let* ds := deref desc in
      let* c := visit_pexpr n (ps_macros st) (ps_lists st) cond in
      let* en := p_enabled (po_enabled o) in
      let r := mkRule nm ds c (texts_of (po_actions o)) (match po_tags o with Some s => [TagList (extract_list s)] | None => [] end)
                      (match po_severity o with Some s => severity_priority s | None => PLow end) (texts_of (po_prefilter o)) en in
      Ok (mkPState (ps_rules st ++ [r]) (ps_filters st) (ps_lists st) (ps_macros st))
  | PFilter id cond enabled =>
      let* nm := deref id in
      let* c := visit_pexpr n (ps_macros st) (ps_lists st) cond in
      let* en := p_enabled enabled in
      Ok (mkPState (ps_rules st) (ps_filters st ++ [mkFilter nm c en]) (ps_lists st) (ps_macros st))
  | PMacro id cond => let* x := deref id in Ok (mkPState (ps_rules st) (ps_filters st) (ps_lists st) (mset x cond (ps_macros st)))
  | PList id its => let* x := deref id in Ok (mkPState (ps_rules st) (ps_filters st) (mset x (texts_of its) (ps_lists st)) (ps_macros st))
  | POther => Ok st
  end.
Fixpoint p_walk (n : nat) (st : pstate) (ds : list pdecl) : res pstate :=
  match ds with [] => Ok st | d :: ds' => let* st' := p_step n st d in p_walk n st' ds' end.
(** compiler.go:69-129: both walks, then the errors. *)
Definition p_file (n : nat) (st : pstate) (f : pfile) : res (pstate * bool) :=
  match f with
  | None => Ok (st, true)
  | Some (defs, pol, errs) => let* st1 := p_walk n st defs in let* st2 := p_walk n st1 pol in Ok (st2, errs)
  end.
Fixpoint p_files (n : nat) (st : pstate) (fs : list pfile) : res (option (list (rule R) * list (filter R))) :=
  match fs with
  | [] => Ok (Some (ps_rules st, ps_filters st))
  | f :: fs' => let* (st', err) := p_file n st f in if err then Ok None else p_files n st' fs'
  end.
Definition p_compile (n : nat) (fs : list pfile) := p_files n pstate0 fs.
End Compiler.
Arguments pstate R : clear implicits.

(** ** Trees without missing parts *)
Fixpoint pt_of (t : term) : pterm :=
  let plain text := PTerm text false None None None None false false in
  match t with
  | TVar x => PTerm x true None None None None false false []
  | TNot t' => PTerm "" false (Some (Some (pt_of t'))) None None None false false []
  | TExists a => PTerm "" false None (Some true) None None false false [a]
  | TBin l op r => PTerm "" false None None (Some (Some op)) None false false [l; r]
  | TIn l args => PTerm "" false None None None None true false (l :: arg_atoms args)
  | TPmatch l args => PTerm "" false None None None None false true (l :: arg_atoms args)
  | TParen e => PTerm "" false None None None (Some (PExpr (Some (map (map (fun t => Some (pt_of t))) e)))) false false []
  end.
Definition pe_of (e : expr) : pexpr := PExpr (Some (map (map (fun t => Some (pt_of t))) e)).
Definition po_of (l : list ropt) : popts :=
  mkPOpts (option_map items_text (first_opt (fun o => match o with OActions it => Some it | _ => None end) l))
          (option_map items_text (first_opt (fun o => match o with OTags it => Some it | _ => None end) l))
          (first_opt (fun o => match o with OPriority s => Some s | _ => None end) l)
          (option_map items_text (first_opt (fun o => match o with OPrefilter it => Some it | _ => None end) l))
          (option_map Some (first_opt (fun o => match o with OEnabled s => Some s | _ => None end) l)).
(** The context of a declaration in the tree of p.Policy(), and in the tree of p.Defs(), where rules and filters are the
    productions srule and sfilter. *)
Definition pd_of (d : decl) : pdecl :=
  match d with
  | DRule d => PRule (Some (rd_name d)) (Some (rd_desc d)) (Some (pe_of (rd_cond d))) (po_of (rd_opts d))
  | DFilter d => PFilter (Some (fd_name d)) (Some (pe_of (fd_cond d))) (option_map Some (fd_enabled d))
  | DMacro x e _ => PMacro (Some x) (Some (pe_of e))
  | DList x it => PList (Some x) (Some (items_text it))
  | DReq _ => POther
  end.
Definition pdef_of (d : decl) : pdecl := match d with DRule _ | DFilter _ => POther | _ => pd_of d end.
Definition pf_of (f : file) : pfile := option_map (fun p => (map pdef_of (fst p), map pd_of (fst p), snd p)) f.

(** ** A file that ends in the middle of a declaration.
    sfpl_parser.go:1186-1259 [Prule], 2048-2100 [Pfilter], 2545-2590 [Pmacro], 2720-2760 [Plist]: the calls up to the first
    sub-rule that may take several forms.  [Match] at the end of the input raises an exception the function itself recovers
    from (neither deleting nor inserting one token helps at the end of the file): the context keeps the children it has.
    [Text] at the end of the input leaves a TextContext without tokens. *)
Inductive call := CMatch (ks : list kind) | CText | CSub.
Inductive child := ChTok (t : tok) | ChText (ts : list tok) | ChSub.
(** The longest run of tokens a text may have. *)
Fixpoint text_run (ts : list tok) : list tok * list tok :=
  match ts with
  | t :: ts' => if reserved_text (tx t) then ([], ts) else let (a, b) := text_run ts' in (t :: a, b)
  | [] => ([], [])
  end.
(** The children added; [None]: a token that does not fit in the middle of the input (inline recovery, not modelled). *)
Fixpoint run_calls (cs : list call) (ts : list tok) : option (list child) :=
  match cs with
  | [] => Some []
  | CMatch ks :: cs' =>
      match ts with
      | [] => Some []
      | t :: ts' => if existsb (kind_beq (tk t)) ks then option_map (cons (ChTok t)) (run_calls cs' ts') else None
      end
  | CText :: cs' => let (a, b) := text_run ts in
                    match a, b with
                    | [], _ :: _ => None
                    | _, _ => option_map (cons (ChText a)) (run_calls cs' b)
                    end
  | CSub :: cs' => Some [ChSub]
  end.
Definition rule_calls : list call :=
  [CMatch [KDecl]; CMatch [KRule]; CMatch [KDef]; CText; CMatch [KDesc]; CMatch [KDef]; CText; CMatch [KCond]; CMatch [KDef]; CSub].
Definition filter_calls : list call :=
  [CMatch [KDecl]; CMatch [KDrop; KFilter]; CMatch [KDef]; CMatch [KId]; CMatch [KCond]; CMatch [KDef]; CSub].
Definition macro_calls : list call :=
  [CMatch [KDecl]; CMatch [KMacro]; CMatch [KDef]; CMatch [KId]; CMatch [KCond]; CMatch [KDef]; CSub].
Definition list_calls : list call :=
  [CMatch [KDecl]; CMatch [KList]; CMatch [KDef]; CMatch [KId]; CMatch [KItems]; CMatch [KDef]; CSub].
(** The accessors: the i-th text (sfpl_parser.go:903), the first token of a kind (1986), the sub-rule (921). *)
Definition texts_in (l : list child) : list (list tok) := flat_map (fun c => match c with ChText ts => [ts] | _ => [] end) l.
Definition ids_in (l : list child) : list tok := flat_map (fun c => match c with ChTok t => if kind_beq (tk t) KId then [t] else [] | _ => [] end) l.
Definition sub_in (l : list child) : bool := existsb (fun c => match c with ChSub => true | _ => false end) l.
(** The text of a TextContext (compiler.go:179-184); without tokens it starts at the end of the input and the text is empty. *)
Definition text_at (i : nat) (l : list child) : option string :=
  match nth_error (texts_in l) i with Some ts => Some (source_text ts) | None => None end.
(** An expression cut off at once: the contexts are created, with no children below the term (sfpl_parser.go [Term]). *)
Definition cut_expr : pexpr := PExpr (Some [[Some (PTerm "" false None None None None false false [])]]).
Definition no_opts : popts := mkPOpts None None None None None.
(** The context of a declaration cut off within these calls; [None]: not modelled, or too short to tell which production. *)
Definition cut_decl (ts : list tok) : option pdecl :=
  let sub l := if sub_in l then Some cut_expr else None in
  match ts with
  | _ :: r :: _ =>
      match tk r with
      | KRule => option_map (fun l => PRule (text_at 0 l) (text_at 1 l) (sub l) no_opts) (run_calls rule_calls ts)
      | KDrop | KFilter => option_map (fun l => PFilter (option_map tx (nth_error (ids_in l) 0)) (sub l) None) (run_calls filter_calls ts)
      | KMacro => option_map (fun l => PMacro (option_map tx (nth_error (ids_in l) 0)) (sub l)) (run_calls macro_calls ts)
      | KList => option_map (fun l => PList (option_map tx (nth_error (ids_in l) 0)) (if sub_in l then Some "" else None)) (run_calls list_calls ts)
      | _ => None
      end
  | _ => None
  end.
(** The file: complete declarations, then a declaration that is cut off. *)
Definition cut_file (ds : list decl) (c : pdecl) : pfile :=
  Some ((map pdef_of ds ++ [match c with PRule _ _ _ _ | PFilter _ _ _ => POther | _ => c end])%list, (map pd_of ds ++ [c])%list, true).
