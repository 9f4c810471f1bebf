(** * EvalModel: evaluating compiled Sigma policies when a test can panic
    (core/policyengine/policy/predicates.go:38-78; policy/sigma/compiler.go:90-106, 143-298;
    source/flatrecord/operations.go:50-75, fieldmapper.go:119-129, 161-192; engine/interpreter.go:159-181).

    Predicates and SigmaModel give a condition as a total Boolean function and count a test that can
    panic as a panic of the compiler.  In Go the panic happens when the test is evaluated, so that such a
    policy is accepted and the process ends at the first record whose evaluation reaches the test.
    Here a condition evaluates to a Boolean or to a panic.  The compiler is SigmaModel's with the
    tests of the data source as a parameter; the records of rules keep the Boolean condition as it
    is without panics. *)
From Verif Require Import GoBase Predicates FlatRecord FalcoModel SigmaModel EngineModel EngineFlat.

(** policy/predicates.go:25-31 *)
Notation pcrit R := (R -> res bool) (only parsing).

Section Crit.
Context {R : Type}.
(** predicates.go:39-42: [c.Eval(r) && cr.Eval(r)] *)
Definition p_and (c cr : pcrit R) : pcrit R := fun r => let* b := c r in if b then cr r else Ok false.
(** predicates.go:45-48 *)
Definition p_or (c cr : pcrit R) : pcrit R := fun r => let* b := c r in if b then Ok true else cr r.
(** predicates.go:51-54 *)
Definition p_not (c : pcrit R) : pcrit R := fun r => let* b := c r in Ok (negb b).
(** predicates.go:57, 60 *)
Definition p_true : pcrit R := fun _ => Ok true.
Definition p_false : pcrit R := fun _ => Ok false.
(** predicates.go:63-78 *)
Definition p_all (cs : list (pcrit R)) : pcrit R := fold_left p_and cs p_true.
Definition p_any (cs : list (pcrit R)) : pcrit R := fold_left p_or cs p_false.
End Crit.

(** operations.go:50-75 on flattened records: the field maps are built when the policy is compiled
    and run, left before right, when the test is evaluated. *)
Definition flat_test (X : sfgo_fns) (M : gomap fieldmap) (l r : string) (op : operator) : pcrit flatrec := fun fr =>
  match op with
  | OpLt | OpLEq | OpGt | OpGEq =>
      match int_op op with Some o => Ok (o (map_int X M l fr) (map_int X M r fr)) | None => Panic end
  | _ =>
      let* ml := map_str X M l in let* mr := map_str X M r in
      match str_op op with Some o => Ok (compare_str (ml fr) (mr fr) o) | None => Panic end
  end.
(** operations.go: tests read only the data of the record. *)
Definition sf_test (X : sfgo_fns) (M : gomap fieldmap) (l r : string) (op : operator) : pcrit sfrec :=
  fun x => flat_test X M l r op (fst x).

Section Compiler.
Context {R : Type}.
(** ops.Compare: the test a comparison compiles to.  It never returns an error. *)
Variable test : string -> string -> operator -> pcrit R.
Variable mappings : gomap (list string).
Variable pmatch : string -> string -> bool.

(** compiler.go:259-298 [visitTerm]; "re" is never among the comparators (modifiers.go:54-63). *)
Definition pc_comparator (op attr value : string) : option (pcrit R) :=
  if seqb op "contains" then Some (test attr value OpIContains)
  else if seqb op "startswith" then Some (test attr value OpIStartswith)
  else if seqb op "endswith" then Some (test attr value OpIEndswith)
  else if seqb op "lt" then Some (test attr value OpLt)
  else if seqb op "lte" then Some (test attr value OpLEq)
  else if seqb op "gt" then Some (test attr value OpGt)
  else if seqb op "gte" then Some (test attr value OpGEq)
  else None.
Fixpoint pc_comparators (cmps : list string) (attr value : string) : list (pcrit R) :=
  match cmps with
  | [] => []
  | op :: cmps' =>
      match pc_comparator op attr value with
      | None => pc_comparators cmps' attr value
      | Some c => c :: pc_comparators cmps' attr value
      end
  end.
Definition pc_term (cmps : list string) (attr value : string) : res (pcrit R) :=
  let* a := mapped_field mappings attr in
  Ok (p_all match cmps with [] => [test a value OpIEq] | _ => pc_comparators cmps a value end).
(** compiler.go:233-247 *)
Definition pc_value (trs : list flags) (cmps : list string) (attr value : string) : res (pcrit R) :=
  match trs with
  | [] => pc_term cmps attr value
  | _ => let* css := rmap (fun t => let* vs := transform value t in rmap (pc_term cmps attr) vs) trs in
         Ok (p_any (concat css))
  end.
(** compiler.go:207-257 [visitSearch] *)
Definition pc_fm (fm : fieldmatcher) : res (pcrit R) :=
  let* preds := rmap (pc_value (fm_transformers (fm_mods fm)) (fm_comparators (fm_mods fm)) (fm_field fm)) (fm_values fm) in
  Ok (if fm_all (fm_mods fm) then p_all preds else p_any preds).
Definition pc_search (s : search) : res (pcrit R) :=
  match se_keywords s with
  | _ :: _ => Ok p_false
  | [] => let* preds := rmap pc_fm (concat (se_matchers s)) in Ok (p_all preds)
  end.
(** compiler.go:143-205 [visitSearchExpression] *)
Section Visit.
Variable searches : gomap search.
Variable enum : list nat -> list (string * search).
Fixpoint pc_sexpr (p : list nat) (e : sexpr) : res (pcrit R) :=
  match e with
  | SId name => match mget name searches with Some s => pc_search s | None => Ok p_false end
  | SAnd l => let* cs := (fix go i l := match l with
                                      | [] => Ok []
                                      | e :: l' => let* c := pc_sexpr (i :: p) e in let* cs := go (S i) l' in Ok (c :: cs)
                                      end) 0 l in Ok (p_all cs)
  | SOr l => let* cs := (fix go i l := match l with
                                     | [] => Ok []
                                     | e :: l' => let* c := pc_sexpr (i :: p) e in let* cs := go (S i) l' in Ok (c :: cs)
                                     end) 0 l in Ok (p_any cs)
  | SNot e => let* c := pc_sexpr (0 :: p) e in Ok (p_not c)
  | SOneOfThem => let* cs := rmap (fun ns => pc_search (snd ns)) (enum p) in Ok (p_any cs)
  | SOneOfPattern pt => let* cs := rmap (fun ns => pc_search (snd ns)) (List.filter (fun ns => pmatch pt (fst ns)) (enum p)) in Ok (p_any cs)
  | SAllOfThem => let* cs := rmap (fun ns => pc_search (snd ns)) (enum p) in Ok (p_all cs)
  | SAllOfPattern pt => let* cs := rmap (fun ns => pc_search (snd ns)) (List.filter (fun ns => pmatch pt (fst ns)) (enum p)) in Ok (p_all cs)
  | SOther => Ok p_false
  end.
End Visit.

(** A rule with its condition as it is evaluated; in [pr_rule] a panic of the condition is read
    as false. *)
Record prule := mkPRule { pr_rule : rule R; pr_cond : pcrit R }.
Definition no_panic (c : pcrit R) : criterion R := fun r => match c r with Ok b => b | _ => false end.
Variable ord : srule -> list nat -> list (string * search).
(** compiler.go:90-106 *)
Definition pc_srule (r : srule) : res (list prule) :=
  imap (fun i e => let* c := pc_sexpr (sr_searches r) (ord r) [i] e in
                 Ok (mkPRule (mkRule (sr_id r) (sr_desc r) (no_panic c) [] (map TagStr (sr_tags r))
                                (level_priority (sr_level r)) [] true) c))
       0 (sr_conds r).
(** compiler.go:63-109 *)
Definition pc_compile (fs : list (option (option srule))) : res (option (list prule)) :=
  match read_rules fs with
  | None => Ok None
  | Some rs => let* rss := rmap pc_srule rs in Ok (Some (concat rss))
  end.

(** ** interpreter.go:159-181: one iteration of the worker loop (Sigma policies have no filters);
    what was done, and the record or the panic that ends the process. *)
Variable applicable : R -> rule R -> bool.
Variable add_rule : R -> rule R -> R.
Variable ah : ahandler R.
Fixpoint pc_apply (rules : list prule) (r : R) (matched : bool) : list (effect R) * res (R * bool) :=
  match rules with
  | [] => ([], Ok (r, matched))
  | ru :: rules' =>
      if r_enabled (pr_rule ru) && applicable r (pr_rule ru) then
        match pr_cond ru r with
        | Ok true =>
            let r1 := add_rule r (pr_rule ru) in
            let (r2, es) := handle_actions ah (pr_rule ru) r1 in
            let (es', o) := pc_apply rules' r2 true in
            (FAnnot (pr_rule ru) :: es ++ es', o)
        | Ok false => pc_apply rules' r matched
        | _ => ([], Panic)
        end
      else pc_apply rules' r matched
  end.
Definition pc_work (m : mode) (rules : list prule) (r : R) : list (effect R) * res R :=
  let (es, o) := pc_apply rules r (match m with EnrichMode => true | AlertMode => false end) in
  match o with
  | Ok (r', matched) => (if matched then es ++ [FOut r'] else es, Ok r')
  | _ => (es, Panic)
  end.
End Compiler.
Arguments prule R : clear implicits.
Arguments pc_apply {R} _ _ _ _ _ _.
Arguments pc_work {R} _ _ _ _ _ _.
