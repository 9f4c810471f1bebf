(** * SpecRecover: what a tree must have for the compiler to get through it, and declarations that are cut off. *)
From Verif Require Import GoBase FalcoModel SpecFalco GrammarModel RecoverModel.

(** A condition with all its parts: under every negation a term, before every operator its operand, all operands in [P]. *)
Section Intact.
Variable P : string -> Prop.
Inductive intact : pterm -> Prop :=
| intact_intro text var neg un bin ex isin ispm atoms :
    (forall o, neg = Some o -> exists t, o = Some t /\ intact t) ->
    (un <> None \/ bin <> None \/ isin = true \/ ispm = true -> exists a l, atoms = a :: l /\ P a) ->
    (bin <> None -> exists a b l, atoms = a :: b :: l /\ P b) ->
    (forall e, ex = Some e -> exists ors, e = PExpr (Some ors) /\ forall c t, In c ors -> In (Some t) c -> intact t) ->
    intact (PTerm text var neg un bin ex isin ispm atoms).
Definition intact_cond (o : option pexpr) : Prop :=
  exists ors, o = Some (PExpr (Some ors)) /\ forall c t, In c ors -> In (Some t) c -> intact t.
(** A declaration that has a name, a condition, and a value for every flag. *)
Definition intact_decl (d : pdecl) : Prop :=
  match d with
  | PRule name desc cond o => name <> None /\ desc <> None /\ intact_cond cond /\ po_enabled o <> Some None
  | PFilter id cond enabled => id <> None /\ intact_cond cond /\ enabled <> Some None
  | PMacro id cond => id <> None /\ intact_cond cond
  | PList id _ => id <> None
  | POther => True
  end.
Definition intact_file (f : pfile) : Prop :=
  match f with Some (defs, pol, _) => Forall intact_decl defs /\ Forall intact_decl pol | None => True end.
End Intact.
(** A declaration that has at least a name, the beginnings of a condition, and a value for every flag. *)
Definition begun (o : option pexpr) : Prop := exists ors, o = Some (PExpr (Some ors)).
Definition has_parts (d : pdecl) : Prop :=
  match d with
  | PRule name desc cond o => name <> None /\ desc <> None /\ begun cond /\ po_enabled o <> Some None
  | PFilter id cond enabled => id <> None /\ begun cond /\ enabled <> Some None
  | PMacro id _ | PList id _ => id <> None
  | POther => True
  end.
(** A declaration that misses what the compiler asks for first. *)
Definition unusable (d : pdecl) : Prop :=
  match d with
  | PRule name desc cond _ => name = None \/ desc = None \/ ~ begun cond
  | PFilter id cond _ => id = None \/ ~ begun cond
  | PMacro id _ | PList id _ => id = None
  | POther => False
  end.
(** The lexer or the parser recorded an error, or the file cannot be read. *)
Definition faulty (f : pfile) : Prop := match f with Some (_, _, errs) => errs = true | None => True end.

(** The tokens "- rule: name desc: text condition", cut off somewhere after "- rule" ... *)
Inductive cut_rule : list tok -> Prop :=
| cut_rule_intro k r d1 n d d2 n' c m :
    tk k = KDecl -> tk r = KRule -> tk d1 = KDef -> n <> [] -> Forall (fun t => reserved_text (tx t) = false) n ->
    tk d = KDesc -> tx d = "desc" -> tk d2 = KDef -> n' <> [] -> Forall (fun t => reserved_text (tx t) = false) n' ->
    tk c = KCond -> tx c = "condition" -> 2 <= m ->
    cut_rule (firstn m (k :: r :: d1 :: n ++ d :: d2 :: n' ++ [c])%list).
(** ... "- drop: name condition" (or filter), cut off after "- drop" ... *)
Inductive cut_filter : list tok -> Prop :=
| cut_filter_intro k f d1 x c m :
    tk k = KDecl -> tk f = KDrop \/ tk f = KFilter -> tk d1 = KDef -> tk x = KId -> tk c = KCond -> 2 <= m ->
    cut_filter (firstn m [k; f; d1; x; c]).
(** ... "- macro:" or "- list:" cut off before the name. *)
Inductive cut_name : list tok -> Prop :=
| cut_name_intro k f d1 m : tk k = KDecl -> tk f = KMacro \/ tk f = KList -> tk d1 = KDef -> 2 <= m -> cut_name (firstn m [k; f; d1]).
(** "- rule: name desc: text condition:" and nothing after it. *)
Inductive cut_condition : list tok -> Prop :=
| cut_condition_intro k r d1 n d d2 n' c d3 :
    tk k = KDecl -> tk r = KRule -> tk d1 = KDef -> n <> [] -> Forall (fun t => reserved_text (tx t) = false) n ->
    tk d = KDesc -> tx d = "desc" -> tk d2 = KDef -> n' <> [] -> Forall (fun t => reserved_text (tx t) = false) n' ->
    tk c = KCond -> tx c = "condition" -> tk d3 = KDef ->
    cut_condition (k :: r :: d1 :: n ++ d :: d2 :: n' ++ [c; d3])%list.
(** "- macro: name condition" or "- list: name items" cut off after the name (or the word that follows it). *)
Inductive cut_named : list tok -> pdecl -> Prop :=
| cut_named_macro k f d1 x c m : tk k = KDecl -> tk f = KMacro -> tk d1 = KDef -> tk x = KId -> tk c = KCond -> 4 <= m ->
    cut_named (firstn m [k; f; d1; x; c]) (PMacro (Some (tx x)) None)
| cut_named_list k f d1 x c m : tk k = KDecl -> tk f = KList -> tk d1 = KDef -> tk x = KId -> tk c = KItems -> 4 <= m ->
    cut_named (firstn m [k; f; d1; x; c]) (PList (Some (tx x)) None).
