(** * Properties C10-C16: the Falco policy compiler. *)
From Verif Require Import GoBase GoFacts Predicates SpecStrings FlatRecord FieldTables Samples
  FalcoModel SpecFalco SpecFlat FalcoFacts FalcoFacts2 FalcoFacts3.

(** A small policy used in the examples: list [shells] nests list [bash_like]; macro
    [spawned] is used before its definition; a filter; a disabled rule; a second file. *)
Definition ex_expr1 : expr := [[TVar "spawned"; TNot (TParen [[TBin "sf.proc.uid" BEq "0"]; [TExists "sf.pod.id"]])]].
Definition ex_decls1 : list decl :=
  [DRule (mkRuleDecl "r1" "d1" ex_expr1 [OPriority "High"; OPrefilter (mkItems ["FE"; "PE"] false)]);
   DMacro "spawned" [[TBin "sf.opflags" BEq "WRITE"; TIn "sf.proc.name" [LAtom "shells"; LAtom "'zsh'"]]] None;
   DList "bash_like" (mkItems ["sh"; """Bash"""] false);
   DList "shells" (mkItems ["ksh"; "bash_like"] false);
   DFilter (mkFilterDecl "f1" [[TBin "sf.proc.exe" BStartswith "/opt"]] None)].
Definition ex_decls2 : list decl :=
  [DRule (mkRuleDecl "r2" "d2" [[TVar "spawned"]] [OEnabled "false"; OPriority "warning"])].
Definition ex_files : list file := [Some (ex_decls1, false); Some (ex_decls2, false)].

(** C10.  The compiled condition has on every record the truth value of the expression,
    and that truth value is unique. *)
Theorem C10_condition_meaning :
  forall (R : Type) (ops : operations R) M L e n c,
  expr_plain e = true -> (forall x m, mget x M = Some m -> expr_plain m = true) ->
  visit_expr ops n M L e = Ok c ->
  forall r A, models ops r A ->
    ev (fun x => mget x M) (fun x => mget x L) A e (c_eval c r) /\
    forall v, ev (fun x => mget x M) (fun x => mget x L) A e v -> v = c_eval c r.
Proof. exact @condition_meaning. Qed.
Print Assumptions C10_condition_meaning.
(** Compilation succeeds for acyclic definitions (with enough fuel, i.e. it terminates). *)
Theorem C10_condition_compiles :
  forall (R : Type) (ops : operations R) P M L e,
  ops_total ops P -> (forall a, In a (expr_operands e) -> P a) ->
  (forall x m a, mget x M = Some m -> In a (expr_operands m) -> P a) ->
  acyclic (fun x => mget x M) expr_refs -> acyclic (fun x => mget x L) (fun l => l) ->
  exists n c, forall m, n <= m -> visit_expr ops m M L e = Ok c.
Proof. exact @condition_compiles. Qed.
Print Assumptions C10_condition_compiles.
(** The flatrecord source meets both hypotheses, with the meanings of C04-C06. *)
Theorem C10_flatrecord_models : forall X M fr, models (flat_ops X M) fr (flat_atomic X M fr).
Proof. exact flat_models. Qed.
Print Assumptions C10_flatrecord_models.
Theorem C10_flatrecord_total : forall X M, ops_total (flat_ops X M) operand_ok.
Proof. exact flat_ops_total. Qed.
Print Assumptions C10_flatrecord_total.
(** The acyclicity hypothesis is needed: a self-referring macro never finishes compiling. *)
Theorem C10_cyclic_macro_diverges :
  forall (R : Type) (ops : operations R) (M : gomap expr) L x,
  mget x M = Some ([[TVar x]] : expr) -> forall n, visit_term ops n M L (TVar x) = NoFuel.
Proof. exact @cyclic_macro_diverges. Qed.
Print Assumptions C10_cyclic_macro_diverges.
Example C10_case :
  match compile (flat_ops X0 mappers) 9 ex_files with
  | Ok (Some (rs, fl)) =>
      map (fun r => (r_name r, c_eval (r_cond r) rec0, r_enabled r, r_prio r)) rs
        = [("r1", true, true, PHigh); ("r2", true, false, PMedium)] /\
      map (fun f => (f_name f, c_eval (f_cond f) rec0)) fl = [("f1", false)]
  | _ => False
  end.
Proof. vm_compute. split; reflexivity. Qed.
Example C10_plain_case : files_plain ex_files.
Proof. intros f d [<-|[<-|[]]] Hd; simpl in Hd; repeat destruct Hd as [<-|Hd]; try reflexivity; destruct Hd. Qed.

(** C11.  != is the complement of =, not the complement of its term. *)
Theorem C11_neq_complement :
  forall (R : Type) (ops : operations R) l r ceq cne,
  compile_bin ops l BEq r = Ok ceq -> compile_bin ops l BNeq r = Ok cne ->
  forall rec, c_eval cne rec = negb (c_eval ceq rec).
Proof. exact @neq_complement. Qed.
Print Assumptions C11_neq_complement.
Theorem C11_not_complement :
  forall (R : Type) (ops : operations R) n M L t c c',
  visit_term ops n M L t = Ok c -> visit_term ops (S n) M L (TNot t) = Ok c' ->
  forall rec, c_eval c' rec = negb (c_eval c rec).
Proof. exact @not_complement. Qed.
Print Assumptions C11_not_complement.
Example C11_case : exists c, compile_bin (flat_ops X0 mappers) "sf.opflags" BNeq "WRITE" = Ok c /\ c_eval c rec0 = false.
Proof. eexists; split; [reflexivity|]. vm_compute. reflexivity. Qed.

(** C12.  Expanding an item replaces list names by their items, in place and recursively,
    and the expansion is unique; it terminates for acyclic lists. *)
Theorem C12_list_expansion :
  forall L x n ys, reduce_list n L x = Ok ys ->
  expands (fun x => mget x L) x ys /\ forall zs, expands (fun x => mget x L) x zs -> zs = ys.
Proof. exact list_meaning. Qed.
Print Assumptions C12_list_expansion.
Theorem C12_list_expansion_terminates :
  forall L, acyclic (fun x => mget x L) (fun l => l) ->
  forall x, exists n ys, forall m, n <= m -> reduce_list m L x = Ok ys.
Proof. exact list_terminates. Qed.
Print Assumptions C12_list_expansion_terminates.
Theorem C12_cyclic_list_diverges : forall L x, mget x L = Some [x] -> forall n, reduce_list n L x = NoFuel.
Proof. exact cyclic_list_diverges. Qed.
Print Assumptions C12_cyclic_list_diverges.
(** A declared list holds exactly its items when it is non-empty, has no trailing comma and
    no item contains a comma. *)
Theorem C12_declared_items_partial :
  forall l, l <> [] -> Forall comma_free l ->
  extract_items (mkItems l false) = map trim_bounding_quotes l.
Proof. exact extract_items_exact. Qed.
Print Assumptions C12_declared_items_partial.
(** Refuted otherwise: an empty list, or one with a trailing comma, contains the empty string. *)
Theorem C12_empty_list_refuted : extract_items (mkItems [] false) = [""].
Proof. exact extract_items_empty. Qed.
Print Assumptions C12_empty_list_refuted.
Theorem C12_trailing_comma_refuted :
  forall l, l <> [] -> Forall comma_free l ->
  extract_items (mkItems l true) = map trim_bounding_quotes l ++ [""].
Proof. exact extract_items_trailing. Qed.
Print Assumptions C12_trailing_comma_refuted.
Example C12_case : reduce_list 5 [("shells", ["ksh"; "bash_like"; "zsh"]); ("bash_like", ["sh"; "'bash'"])] "shells"
                   = Ok ["ksh"; "sh"; "bash"; "zsh"]
  /\ extract_items (mkItems ["ksh"; "'a b'"] false) = ["ksh"; "a b"].
Proof. split; reflexivity. Qed.

(** C13, C14.  A successful compilation yields one rule per rule declaration and one filter
    per filter declaration, in file and declaration order; each has the name, description,
    enabled flag and priority of its declaration, and a condition with the meaning the
    declaration has in its scope: nearest preceding definition in the file, else last in the
    file, else last in the earlier files. *)
Theorem C14_compiled_policy :
  forall (R : Type) (ops : operations R) n fs rules filters,
  files_plain fs -> compile ops n fs = Ok (Some (rules, filters)) ->
  Forall file_good fs /\
  Forall2 (rule_of ops) (rule_occs (occs [] fs)) rules /\
  Forall2 (filter_of ops) (filter_occs (occs [] fs)) filters.
Proof. exact @compile_ok. Qed.
Print Assumptions C14_compiled_policy.
Theorem C13_scoped_meaning :
  forall (R : Type) (ops : operations R) n fs rules filters,
  files_plain fs -> compile ops n fs = Ok (Some (rules, filters)) ->
  Forall2 (rule_of ops) (rule_occs (occs [] fs)) rules.
Proof. intros R ops n fs rules filters H1 H2. exact (proj1 (proj2 (@compile_ok R ops n fs rules filters H1 H2))). Qed.
Print Assumptions C13_scoped_meaning.
(** Any file that cannot be read or parsed suppresses all output, and only that does. *)
Theorem C14_all_or_nothing :
  forall (R : Type) (ops : operations R) n fs st o,
  compile_files ops n st fs = Ok o -> (o = None <-> ~ Forall file_good fs).
Proof. intros R ops n fs. exact (@compile_files_err R ops n fs). Qed.
Print Assumptions C14_all_or_nothing.
(** Compilation terminates when the definitions seen at every point are acyclic. *)
Theorem C14_compilation_terminates :
  forall (R : Type) (ops : operations R) P, ops_total ops P -> forall fs,
  files_operands P fs ->
  (forall o, In o (occs [] fs) -> acyclic (oc_macros o) expr_refs /\ acyclic (oc_lists o) (fun l => l)) ->
  exists n out, forall m, n <= m -> compile ops m fs = Ok out.
Proof. exact @compile_total. Qed.
Print Assumptions C14_compilation_terminates.
Example C13_case :
  map (fun od => rd_name (snd od)) (rule_occs (occs [] ex_files)) = ["r1"; "r2"] /\
  (forall o d, In (o, d) (rule_occs (occs [] ex_files)) -> oc_macros o "spawned" <> None /\ oc_macros o "nope" = None) /\
  compile (flat_ops X0 mappers) 9 (Some (ex_decls2, true) :: ex_files) = Ok None.
Proof.
  split; [reflexivity|]. split; [|vm_compute; reflexivity].
  intros o d [H|[H|[]]]; inversion H; subst; split; vm_compute; congruence.
Qed.
(** A later redefinition in the same file is what an earlier rule does not see once an own
    preceding definition exists. *)
Example C13_shadow_case :
  let ds := [DMacro "m" [[TExists "a"]] None; DRule (mkRuleDecl "r" "" [[TVar "m"]] []); DMacro "m" [[TExists "b"]] None] in
  map (fun od => oc_macros (fst od) "m") (rule_occs (occs [] [Some (ds, false)])) = [Some [[TExists "a"]]].
Proof. reflexivity. Qed.

(** C15.  Severity words.  High exactly for high/emergency/critical/error, Medium exactly for
    medium/warning (any case), Low otherwise: never Critical nor Informational. *)
Theorem C15_severity_words :
  forall s,
  (severity_priority s = PHigh <-> In (to_lower s) high_words) /\
  (severity_priority s = PMedium <-> In (to_lower s) medium_words) /\
  (severity_priority s = PHigh \/ severity_priority s = PMedium \/ severity_priority s = PLow).
Proof. exact severity_priority_spec. Qed.
Print Assumptions C15_severity_words.
(** Refuted as a severity scale: "alert", documented between emergency and critical, is Low. *)
Theorem C15_alert_refuted :
  forall s, ci_alert s = true -> severity_priority s = PLow.
Proof. exact alert_low. Qed.
Print Assumptions C15_alert_refuted.
Example C15_case : severity_priority "ERROR" = PHigh /\ ci_alert "Alert" = true /\ severity_priority "bogus" = PLow.
Proof. repeat split. Qed.

(** C16 (refuted).  A membership test whose arguments are inline lists never holds. *)
Theorem C16_inline_list_refuted :
  forall X M n Ms L l its fr c,
  visit_term (flat_ops X M) n Ms L (TIn l (map LItems its)) = Ok c -> c_eval c fr = false.
Proof. exact inline_ignored. Qed.
Print Assumptions C16_inline_list_refuted.
(** The specification says otherwise: here is a record and a condition that should hold. *)
Example C16_case :
  let t := TIn "sf.proc.name" [LItems (mkItems ["Bash"] false)] in
  (exists c, visit_term (flat_ops X0 mappers) 3 [] [] t = Ok c /\ c_eval c rec0 = false) /\
  tv (fun _ => None) (fun _ => None) (flat_atomic X0 mappers rec0) t true.
Proof.
  split; [eexists; split; [reflexivity|vm_compute; reflexivity]|].
  apply tv_in with (["Bash"] ++ []).
  - apply ai_items with (ys := ["Bash"] ++ []); [|constructor].
    constructor; [apply (ex_leaf _ "Bash"); reflexivity|constructor].
  - split; [intros _|reflexivity]. eexists. split; [vm_compute; reflexivity|].
    exists "Bash". split; [left; reflexivity|]. exists "Bash", "Bash".
    assert (C : component "Bash" "Bash").
    { exists ["Bash"]. repeat split; try discriminate; [|left; reflexivity]. repeat constructor; discriminate. }
    split; [exact C|]. split; [exact C|reflexivity].
Qed.
