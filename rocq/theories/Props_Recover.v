(** * Props_Recover: malformed and truncated policy files (C96). *)
From Coq Require Import Lia.
From Verif Require Import GoBase GoFacts Predicates FlatRecord FieldTables Samples FalcoModel SpecFalco SpecFlat FalcoFacts3 Props_Falco GrammarModel SpecGrammar LexerModel LexFast Props_Grammar
  RecoverModel SpecRecover RecoverFacts.

(** ** C96: what loading does with policy files that have syntax errors.  [pfile] is what the parser leaves of a file: a tree,
    parts of which may be missing, and whether errors were recorded.  For files that follow the grammar this is the compiler
    of C10-C16 ... *)
Theorem C96_agrees {R} (ops : operations R) n fs : Forall (fun f => forall ds errs, f = Some (ds, errs) -> exists ts, g_defs ts ds) fs ->
  p_compile ops n (map pf_of fs) = compile ops n fs.
Proof.
  intros H. apply compile_agree. revert H. apply Forall_impl. intros [[ds errs]|] F; [|exact I]. destruct (F ds errs eq_refl) as (ts & G). exact (g_defs_full ts ds G).
Qed.
Print Assumptions C96_agrees.
(** ... a set of files is accepted only if none of them has an error, whatever the trees are ... *)
Theorem C96_errors_never_accepted {R} (ops : operations R) n fs r : p_compile ops n fs = Ok (Some r) -> Forall (fun f => ~ faulty f) fs.
Proof. exact (some_means ops n fs pstate0 r). Qed.
Print Assumptions C96_errors_never_accepted.
(** ... when the trees have all the parts the compiler asks for, an error is reported and the process goes on (with fuel
    enough for the macros and lists: C10) ... *)
Theorem C96_reported_partial {R} (ops : operations R) P n fs : ops_total ops P -> Forall (intact_file P) fs -> Exists faulty fs ->
  p_compile ops n fs = Ok None \/ p_compile ops n fs = NoFuel.
Proof. exact (fun T => intact_reported ops P T n fs). Qed.
Print Assumptions C96_reported_partial.
(** ... so it is when every file follows the grammar but for what errors were recorded, ... *)
Theorem C96_whole_reported {R} (ops : operations R) P n fs : ops_total ops P -> (forall f ds errs d a, In f fs -> f = Some (ds, errs) -> In d ds -> In a (decl_operands d) -> P a) ->
  Exists (fun f => f = None \/ exists ds, f = Some (ds, true)) fs ->
  p_compile ops n (map pf_of fs) = Ok None \/ p_compile ops n (map pf_of fs) = NoFuel.
Proof. exact (whole_reported ops P n fs). Qed.
Print Assumptions C96_whole_reported.
(** ... conversely, when loading comes back at all, with or without an error, every declaration of every file up to the first
    faulty one, and of that one, has its parts: one that misses its name, its description, the beginning of its condition or
    the value of its flag takes the process down (or a walk before it does) ... *)
Theorem C96_missing_parts_refuted {R} (ops : operations R) n pre defs pol errs post x d :
  p_compile ops n (pre ++ Some (defs, pol, errs) :: post)%list = Ok x -> Forall (fun f => ~ faulty f) pre -> In d (defs ++ pol)%list -> has_parts d.
Proof. intros H Hp Hd. exact (proj1 (Forall_forall _ _) (survives ops n pre _ post pstate0 x H Hp defs pol errs eq_refl) d Hd). Qed.
Print Assumptions C96_missing_parts_refuted.
(** ... that is a crash (a nil dereference), not an orderly exit: whatever loads without it, a declaration without its name, its description or
    the beginning of its condition ... *)
Theorem C96_crash_refuted {R} (ops : operations R) n pre defs pol d rest errs post r :
  p_compile ops n (pre ++ [Some (defs, pol, false)])%list = Ok (Some r) -> unusable d ->
  p_compile ops n (pre ++ Some (defs, pol ++ d :: rest, errs) :: post)%list = Panic.
Proof. exact (unusable_crash ops n pre defs pol d rest errs post r). Qed.
Print Assumptions C96_crash_refuted.
(** ... an error is reported, for example, when the file ends right after "condition:" ... *)
Theorem C96_cut_condition_reported {R} (ops : operations R) n pre ts ds ts2 post r : g_defs ts ds -> cut_condition ts2 -> 0 < n ->
  p_compile ops n (pre ++ [pf_of (Some (ds, false))])%list = Ok (Some r) ->
  exists c, cut_decl ts2 = Some c /\ p_compile ops n (pre ++ cut_file ds c :: post)%list = Ok None.
Proof. exact (fun _ C => cut_condition_reported ops ts2 n pre ds post r C). Qed.
Print Assumptions C96_cut_condition_reported.
(** ... the name and the description are there then ... *)
Theorem C96_cut_texts k r d1 n d d2 n' c d3 :
  tk k = KDecl -> tk r = KRule -> tk d1 = KDef -> n <> [] -> Forall (fun t => reserved_text (tx t) = false) n ->
  tk d = KDesc -> tx d = "desc" -> tk d2 = KDef -> n' <> [] -> Forall (fun t => reserved_text (tx t) = false) n' ->
  tk c = KCond -> tx c = "condition" -> tk d3 = KDef ->
  exists e, begun (Some e) /\ cut_decl (k :: r :: d1 :: n ++ d :: d2 :: n' ++ [c; d3])%list = Some (PRule (Some (source_text n)) (Some (source_text n')) (Some e) no_opts).
Proof. exact (cut_texts k r d1 n d d2 n' c d3). Qed.
Print Assumptions C96_cut_texts.
(** ... so it is when the file consists of a macro or list cut off after its name ... *)
Theorem C96_cut_named_reported {R} (ops : operations R) n pre ts c post r : cut_named ts c -> p_compile ops n pre = Ok (Some r) ->
  cut_decl ts = Some c /\ p_compile ops n (pre ++ cut_file [] c :: post)%list = Ok None.
Proof. exact (cut_named_reported ops ts c n pre post r). Qed.
Print Assumptions C96_cut_named_reported.
(** ... refuted: "a policy file with a syntax error makes loading fail with an error".  A file whose declarations [ds] load,
    followed by a rule or filter cut off anywhere after its keyword and before the colon of its condition, or a macro or list
    cut off before its name, takes the process down. *)
Theorem C96_cut_off_refuted {R} (ops : operations R) n pre ts ds ts2 post r : g_defs ts ds -> cut_rule ts2 \/ cut_filter ts2 \/ cut_name ts2 ->
  p_compile ops n (pre ++ [pf_of (Some (ds, false))])%list = Ok (Some r) ->
  exists c, cut_decl ts2 = Some c /\ p_compile ops n (pre ++ cut_file ds c :: post)%list = Panic.
Proof. exact (fun _ C => cut_off_crashes ops ts2 n pre ds post r C). Qed.
Print Assumptions C96_cut_off_refuted.

(** The policy of C83, saved half way through a further rule. *)
Definition ex_tail := "- rule: Downloads desc: a download cond".
Definition ex_tail2 := "- rule: Downloads desc: a download condition:".
Definition ex_tail3 := "- drop: noise".
Definition run (tail : string) := option_map (fun c => p_compile (flat_ops X0 mappers) 9 [cut_file ex_ds c]) (cut_decl (toks tail)).
Definition accepted {A} (x : res (option A)) : bool := match x with Ok (Some _) => true | _ => false end.
Lemma accepted_some {A} (x : res (option A)) : accepted x = true -> exists r, x = Ok (Some r).
Proof. destruct x as [[r|]| | |]; try discriminate. eauto. Qed.
Example C96_case :
  (lexes "" ex_tail (toks ex_tail) /\ cut_rule (toks ex_tail)) /\ (lexes "" ex_tail2 (toks ex_tail2) /\ cut_condition (toks ex_tail2)) /\
  (lexes "" ex_tail3 (toks ex_tail3) /\ cut_filter (toks ex_tail3)) /\
  (exists r, p_compile (flat_ops X0 mappers) 9 [pf_of (Some (ex_ds, false))] = Ok (Some r)) /\
  run ex_tail = Some Panic /\ run ex_tail2 = Some (Ok None) /\ run ex_tail3 = Some Panic.
Proof.
  split; [split; [apply toks_lexes; vm_compute; discriminate|]|].
  { replace (toks ex_tail) with (firstn 9 ((mkTok KDecl "-" "") :: (mkTok KRule "rule" " ") :: (mkTok KDef ":" "") :: [mkTok KId "Downloads" " "] ++ (mkTok KDesc "desc" " ") :: (mkTok KDef ":" "") ::
      [mkTok KId "a" " "; mkTok KId "download" " "; mkTok KId "cond" " "] ++ [mkTok KCond "condition" " "])%list) by (vm_compute; reflexivity).
    apply cut_rule_intro; try reflexivity; try discriminate; try lia; repeat (constructor; [reflexivity|]); constructor. }
  split; [split; [apply toks_lexes; vm_compute; discriminate|]|].
  { replace (toks ex_tail2) with ((mkTok KDecl "-" "") :: (mkTok KRule "rule" " ") :: (mkTok KDef ":" "") :: [mkTok KId "Downloads" " "] ++ (mkTok KDesc "desc" " ") :: (mkTok KDef ":" "") ::
      [mkTok KId "a" " "; mkTok KId "download" " "] ++ [mkTok KCond "condition" " "; mkTok KDef ":" ""])%list by (vm_compute; reflexivity).
    apply cut_condition_intro; try reflexivity; try discriminate; repeat (constructor; [reflexivity|]); constructor. }
  split; [split; [apply toks_lexes; vm_compute; discriminate|]|].
  { replace (toks ex_tail3) with (firstn 4 [mkTok KDecl "-" ""; mkTok KDrop "drop" " "; mkTok KDef ":" ""; mkTok KId "noise" " "; mkTok KCond "condition" ""]) by (vm_compute; reflexivity).
    apply cut_filter_intro; try reflexivity; [left; reflexivity|lia]. }
  split; [|vm_compute; repeat split; reflexivity].
  apply accepted_some. vm_compute. reflexivity.
Qed.
(** A whole tree with an error (a stray token at the end): reported. *)
Lemma plain_operand a : existsb (fun c => Ascii.eqb c "["%char) (list_ascii_of_string a) = false -> operand_ok a.
Proof.
  intros H s ->. assert (K : list_ascii_of_string (s ++ "[") = (list_ascii_of_string s ++ ["["%char])%list) by (clear; induction s as [|c s IH]; cbn; [reflexivity|rewrite IH; reflexivity]).
  rewrite K, existsb_app in H. cbn in H. rewrite orb_true_r in H. discriminate.
Qed.
Example C96_reported_case : let f := pf_of (Some (ex_ds, true)) in
  intact_file operand_ok f /\ faulty f /\ p_compile (flat_ops X0 mappers) 9 [f; f] = Ok None.
Proof.
  cbv zeta. split; [|split; [reflexivity|vm_compute; reflexivity]]. apply whole_file. intros d a Hd Ha. apply plain_operand.
  cbn in Hd. repeat destruct Hd as [<-|Hd]; cbn in Ha; repeat destruct Ha as [<-|Ha]; try contradiction; reflexivity.
Qed.
(** A rule without a description: the process dies, although the error is recorded. *)
Example C96_missing_parts_case : let bad := PRule (Some "r") None (Some (pe_of [[TExists "sf.type"]])) no_opts in
  ~ has_parts bad /\ p_compile (flat_ops X0 mappers) 9 [Some ([POther], [bad], true)] = Panic /\
  p_compile (flat_ops X0 mappers) 9 [Some ([POther], [PRule (Some "r") (Some "d") (Some (PExpr None)) no_opts], true)] = Panic /\
  p_compile (flat_ops X0 mappers) 9 [Some ([POther], [PRule (Some "r") (Some "d") (Some (pe_of [[TExists "sf.type"]])) no_opts], true)] = Ok None.
Proof. cbv zeta. split; [intros (_ & H & _); contradiction|]. vm_compute. auto. Qed.
(** C96_crash_refuted's hypotheses: a condition of which only the context is there, after a good macro. *)
Example C96_crash_case : (exists r, p_compile (flat_ops X0 mappers) 9 [Some ([PMacro (Some "m") (Some (pe_of [[TExists "sf.type"]]))], [], false)] = Ok (Some r)) /\
  unusable (PRule (Some "r") (Some "d") (Some (PExpr None)) no_opts).
Proof. split; [apply accepted_some; vm_compute; reflexivity|]. right. right. intros [ors [=]]. Qed.
(** A macro and a list cut off after the name. *)
Example C96_named_case : cut_named (toks "- macro: shells condition") (PMacro (Some "shells") None) /\ cut_named (toks "- list: shells") (PList (Some "shells") None).
Proof.
  split.
  - replace (toks "- macro: shells condition") with (firstn 5 [mkTok KDecl "-" ""; mkTok KMacro "macro" " "; mkTok KDef ":" ""; mkTok KId "shells" " "; mkTok KCond "condition" " "]) by (vm_compute; reflexivity).
    apply (cut_named_macro _ _ _ (mkTok KId "shells" " ")); try reflexivity; lia.
  - replace (toks "- list: shells") with (firstn 4 [mkTok KDecl "-" ""; mkTok KList "list" " "; mkTok KDef ":" ""; mkTok KId "shells" " "; mkTok KItems "items" " "]) by (vm_compute; reflexivity).
    apply (cut_named_list _ _ _ (mkTok KId "shells" " ")); try reflexivity; lia.
Qed.
