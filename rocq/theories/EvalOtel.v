(** * EvalOtel: evaluating compiled policies on OpenTelemetry logs when a test can panic
    (policy/falco/compiler.go:69-178, 297-370; policy/predicates.go:38-78; engine/interpreter.go:159-194;
    source/otel/operations.go:33-133).

    OtelEngine reads a test that panics as false.  Here a condition evaluates to a Boolean or to a
    panic, as EvalModel has it for Sigma conditions; Falco conditions and filters are added.  On
    logs no test is refused by the compiler (operations.go: the error is always nil but for
    regular expressions, which neither language can reach: SigmaModel, FalcoModel). *)
From Verif Require Import GoBase Predicates FalcoModel SigmaModel EngineModel OtelModel OtelEngine EvalModel.

Section Falco.
Context {R : Type}.
(** ops.Exists, ops.Compare and ops.FoldAny: the tests conditions compile to. *)
Variable t_exists : string -> pcrit R.
Variable t_cmp : string -> string -> operator -> pcrit R.
Variable t_any : string -> list string -> operator -> pcrit R.

(** compiler.go:334-354 *)
Definition pf_bin (l : string) (op : binop) (r : string) : pcrit R :=
  match op with
  | BContains => t_cmp l r OpContains
  | BIContains => t_cmp l r OpIContains
  | BStartswith => t_cmp l r OpStartswith
  | BEndswith => t_cmp l r OpEndswith
  | BEq => t_cmp l r OpEq
  | BNeq => p_not (t_cmp l r OpEq)
  | BGt => t_cmp l r OpGt
  | BGe => t_cmp l r OpGEq
  | BLt => t_cmp l r OpLt
  | BLe => t_cmp l r OpLEq
  end.
(** compiler.go:297-314 [visitExpression] *)
Definition pf_expr_with (vt : term -> res (pcrit R)) (e : expr) : res (pcrit R) :=
  let* ors := rmap (fun conj => let* cs := rmap vt conj in Ok (p_all cs)) e in
  Ok (p_any ors).
(** compiler.go:316-370 [visitTerm] *)
Fixpoint pf_term (n : nat) (macros : gomap expr) (lists : gomap (list string)) (t : term) : res (pcrit R) :=
  match n with
  | O => NoFuel
  | S n' =>
      match t with
      | TVar x => match mget x macros with
                  | Some m => pf_expr_with (pf_term n' macros lists) m
                  | None => Ok p_false
                  end
      | TNot t' => let* c := pf_term n' macros lists t' in Ok (p_not c)
      | TExists a => Ok (t_exists a)
      | TBin l op r => Ok (pf_bin l op r)
      | TParen e => pf_expr_with (pf_term n' macros lists) e
      | TIn l args => let* items := extract_list_from_atoms n' lists (arg_atoms args) in Ok (t_any l items OpEq)
      | TPmatch l args => let* items := extract_list_from_atoms n' lists (arg_atoms args) in Ok (t_any l items OpContains)
      end
  end.
Definition pf_expr (n : nat) (macros : gomap expr) (lists : gomap (list string)) (e : expr) : res (pcrit R) :=
  pf_expr_with (pf_term n macros lists) e.

(** A filter with its condition as it is evaluated. *)
Record pfilter := mkPFilter { pf_filter : filter R; pf_cond : pcrit R }.
(** compiler.go:46-54 *)
Record pstate := mkPState {
  ps_rules : list (prule R); ps_filters : list pfilter;
  ps_lists : gomap (list string); ps_macros : gomap expr }.
Definition pstate0 : pstate := mkPState [] [] [] [].
(** compiler.go:90-92 *)
Definition pf_def_step (st : pstate) (d : decl) : pstate :=
  match d with
  | DMacro x e _ => mkPState (ps_rules st) (ps_filters st) (ps_lists st) (mset x e (ps_macros st))
  | DList x it => mkPState (ps_rules st) (ps_filters st) (mset x (extract_items it) (ps_lists st)) (ps_macros st)
  | _ => st
  end.
(** compiler.go:132-168 *)
Definition pf_policy_step (n : nat) (st : pstate) (d : decl) : res pstate :=
  match d with
  | DRule d =>
      let* c := pf_expr n (ps_macros st) (ps_lists st) (rd_cond d) in
      let r := mkRule (rd_name d) (rd_desc d) (no_panic c) (get_actions (rd_opts d)) (get_tags (rd_opts d))
                      (get_priority (rd_opts d)) (get_prefilter (rd_opts d)) (get_enabled (rd_opts d)) in
      Ok (mkPState (ps_rules st ++ [mkPRule r c]) (ps_filters st) (ps_lists st) (ps_macros st))
  | DFilter d =>
      let* c := pf_expr n (ps_macros st) (ps_lists st) (fd_cond d) in
      let f := mkFilter (fd_name d) (no_panic c) (match fd_enabled d with None => true | Some s => enabled_flag s end) in
      Ok (mkPState (ps_rules st) (ps_filters st ++ [mkPFilter f c]) (ps_lists st) (ps_macros st))
  | _ => Ok (pf_def_step st d)
  end.
Fixpoint pf_walk (n : nat) (st : pstate) (ds : list decl) : res pstate :=
  match ds with
  | [] => Ok st
  | d :: ds' => let* st' := pf_policy_step n st d in pf_walk n st' ds'
  end.
(** compiler.go:69-129, on files that were opened and parsed without errors. *)
Fixpoint pf_files (n : nat) (st : pstate) (dss : list (list decl)) : res pstate :=
  match dss with
  | [] => Ok st
  | ds :: dss' => let* st' := pf_walk n (fold_left pf_def_step ds st) ds in pf_files n st' dss'
  end.
Definition pf_compile (n : nat) (dss : list (list decl)) : res (list (prule R) * list pfilter) :=
  let* st := pf_files n pstate0 dss in Ok (ps_rules st, ps_filters st).

(** interpreter.go:187-194 *)
Fixpoint pf_filters (fs : list pfilter) (r : R) : res bool :=
  match fs with
  | [] => Ok false
  | f :: fs' =>
      if f_enabled (pf_filter f) then let* b := pf_cond f r in if b then Ok true else pf_filters fs' r
      else pf_filters fs' r
  end.
(** interpreter.go:159-181: one iteration of the worker loop. *)
Definition pf_work (applicable : R -> rule R -> bool) (add_rule : R -> rule R -> R) (ah : ahandler R) (m : mode)
    (filters : list pfilter) (rules : list (prule R)) (r : R) : list (effect R) * res R :=
  match pf_filters filters r with
  | Ok true => ([], Ok r)
  | Ok false => pc_work applicable add_rule ah m rules r
  | _ => ([], Panic)
  end.
End Falco.
Arguments pfilter R : clear implicits.
Arguments pstate R : clear implicits.

(** ** Logs *)
Section Logs.
Variable D : Type.
Variable parse_float : string -> option D.
Variables deq dlt dle : D -> D -> bool.
Variable enum : logs D -> rule (logs D) -> list string -> list string.
Definition of_compile := pf_compile (o_exists D) (o_compare D parse_float deq dlt dle) (o_foldany D parse_float deq dlt dle).
Definition os_compile := pc_compile (o_compare D parse_float deq dlt dle).
(** What a worker does with a log; the effects, and the log or the panic that ends the process. *)
Definition op_work := pf_work (o_applicable D) (o_add D enum).
End Logs.
