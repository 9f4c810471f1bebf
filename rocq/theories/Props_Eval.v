(** * Property C120: evaluating an accepted policy never ends the process. *)
From Coq Require Import Permutation.
From Verif Require Import GoBase GoFacts Predicates SpecStrings FlatRecord FieldTables Samples FalcoModel SpecFalco SpecFlat FalcoFacts FalcoFacts2 FalcoFacts3
  SigmaModel SpecSigma SigmaFacts Props_Sigma EngineModel EngineFlat GrammarModel LexerModel SpecLexer EvalModel SpecEval EvalFacts OperandFacts.

(** ** Falco policies: no text can contain an operand on which evaluation panics *)
Theorem C120_falco_operands :
  forall t ds d a, text_reads t ds -> In d ds -> In a (decl_operands d) -> operand_ok a.
Proof. exact text_operands. Qed.
Print Assumptions C120_falco_operands.
(** Compilation of policy texts for flattened records never panics, and returns if no macro or list
    refers to itself; every test of a compiled condition yields a Boolean on every record (a compiled
    condition is a total function). *)
Theorem C120_falco_never :
  forall X M texts dss, Forall2 text_reads texts dss ->
  let fs := map (fun ds => Some (ds, false)) dss in
  (forall o, In o (occs [] fs) -> acyclic (oc_macros o) expr_refs /\ acyclic (oc_lists o) (fun l => l)) ->
  exists n out, forall m, n <= m -> compile (flat_ops X M) m fs = Ok out.
Proof. intros X M texts dss H fs Ha. exact (compile_total _ operand_ok (flat_ops_total X M) fs (texts_operands _ _ H) Ha). Qed.
Print Assumptions C120_falco_never.
(** The value of an operand of a policy text is defined on every record. *)
Theorem C120_falco_values :
  forall X M t ds d a, text_reads t ds -> In d ds -> In a (decl_operands d) -> exists m, map_str X M a = Ok m.
Proof. intros X M t ds d a H Hd Ha. exact (map_str_total X M a (text_operands t ds d a H Hd Ha)). Qed.
Print Assumptions C120_falco_values.
Example C120_falco_case :
  cut_off mappers "sf.proc.exe[" /\ ~ operand_ok "sf.proc.exe[" /\ ~ cut_off mappers "foo[" /\ ~ cut_off mappers "sf.pod.services[0.id]".
Proof.
  split; [exists "sf.proc.exe"; split; [|split; [vm_compute; discriminate|reflexivity]]|].
  - apply in_bytes. reflexivity.
  - split; [intros H; exact (H "sf.proc.exe" eq_refl)|]. split; intros H; apply split_cut_off in H; vm_compute in H; discriminate.
Qed.

(** ** Sigma policies *)
(** What evaluating a compiled condition on a record does: a left-to-right run, in some order of the
    searches a wildcard stands for. *)
Theorem C120_sigma_evaluation :
  forall X M mappings pmatch ord, (forall r p, Permutation (ord r p) (sr_searches r)) -> forall fs prs,
  pc_compile (sf_test X M) mappings pmatch ord fs = Ok (Some prs) ->
  exists srs, readable fs srs /\
    Forall2 (prule_of X M mappings pmatch) (concat (map (fun r => map (fun e => (r, e)) (sr_conds r)) srs)) prs.
Proof. exact pc_compile_spec. Qed.
Print Assumptions C120_sigma_evaluation.
(** Start-up accepts a policy whatever its fields and values, if it has no base64Offset or cidr
    modifier and no empty mapping. *)
Theorem C120_sigma_accepted :
  forall X M mappings pmatch ord, (forall r p, Permutation (ord r p) (sr_searches r)) -> forall fs srs,
  readable fs srs -> (forall r n s, In r srs -> In (n, s) (sr_searches r) -> search_compiles mappings s) ->
  exists prs, pc_compile (sf_test X M) mappings pmatch ord fs = Ok (Some prs).
Proof. exact accepted. Qed.
Print Assumptions C120_sigma_accepted.
(** No record ends the process if moreover no mapped field and no form of a value is the name of a
    field followed by an opening bracket and nothing else. *)
Theorem C120_sigma_safe :
  forall X M mappings pmatch ord, (forall r p, Permutation (ord r p) (sr_searches r)) -> forall fs srs,
  readable fs srs ->
  (forall r n s, In r srs -> In (n, s) (sr_searches r) -> search_usable mappings (fun a => ~ cut_off M a) s) ->
  exists prs, pc_compile (sf_test X M) mappings pmatch ord fs = Ok (Some prs) /\
    forall pr r, In pr prs -> exists b, pr_cond pr r = Ok b.
Proof. exact safe. Qed.
Print Assumptions C120_sigma_safe.
(** The conditions the other theorems speak of are these, where nothing panics. *)
Theorem C120_sigma_same :
  forall X M mappings pmatch ord fs rs, s_compile (sf_ops X M) mappings pmatch ord fs = Ok (Some rs) ->
  exists prs, pc_compile (sf_test X M) mappings pmatch ord fs = Ok (Some prs) /\
    Forall2 (fun ru pr => forall r, pr_cond pr r = Ok (c_eval (r_cond ru) r)) rs prs.
Proof. exact agree. Qed.
Print Assumptions C120_sigma_same.
(** A worker that takes a record on which the evaluation of some rule panics ends the process, whatever
    the other rules, the actions and the mode; otherwise exactly the rules that hold are recorded in
    it, in order, and it is passed on if there is one or the mode is Enrich. *)
Theorem C120_worker :
  forall X M mappings pmatch ord, (forall r p, Permutation (ord r p) (sr_searches r)) -> forall fs prs,
  pc_compile (sf_test X M) mappings pmatch ord fs = Ok (Some prs) -> forall ah m r,
  ((exists pr, In pr prs /\ pr_cond pr r = Panic) -> snd (pc_work (sf_applicable X M) sf_add ah m prs r) = Panic) /\
  ((forall pr, In pr prs -> pr_cond pr r <> Panic) ->
   pc_work (sf_applicable X M) sf_add ah m prs r =
     ((map FAnnot (hits prs r) ++
       match m, hits prs r with AlertMode, [] => [] | _, _ => [FOut (annotated (hits prs r) r)] end)%list,
      Ok (annotated (hits prs r) r))).
Proof. exact worker. Qed.
Print Assumptions C120_worker.
(** Refuted in general: a rule with a field or a value like "sf.proc.exe[" is accepted and ends the
    process at the first record. *)
Theorem C120_sigma_crash_refuted :
  forall X M mappings pmatch ord r n f v mods t,
  sr_conds r = [SId n] -> mget n (sr_searches r) = Some (mkSearch [] [[mkFM f mods [v]]]) ->
  (forall m, In m mods -> ~ transforming m) -> (forall m op, In m mods -> mod_op m op -> is_str_op op = true) ->
  target mappings f t -> cut_off M t \/ cut_off M v ->
  exists pr, pc_compile (sf_test X M) mappings pmatch ord [Some (Some r)] = Ok (Some [pr]) /\ forall x, pr_cond pr x = Panic.
Proof. exact bomb. Qed.
Print Assumptions C120_sigma_crash_refuted.

(** A rule file with a value that is cut off, behind a test that decides first. *)
Definition ex_bomb : srule := mkSRule "b" "" "low" [] [SId "sel"; SAnd [SId "no"; SId "sel"]; SOr [SNot (SId "no"); SId "sel"]]
  [("sel", mkSearch [] [[mkFM "Image" ["contains"] ["sf.proc.exe["]]]); ("no", mkSearch [] [[mkFM "Image" ["endswith"] ["/zsh"]]])].
Example C120_bomb_case :
  match pc_compile (sf_test X0 mappers) ex_maps ex_pmatch ex_ord [Some (Some ex_bomb)] with
  | Ok (Some prs) => map (fun pr => pr_cond pr (rec0, ctx_new)) prs = [Panic; Ok false; Ok true]
  | _ => False
  end.
Proof. lazy. reflexivity. Qed.
Example C120_bomb_stops :
  match pc_compile (sf_test X0 mappers) ex_maps ex_pmatch ex_ord [Some (Some ex_bomb)] with
  | Ok (Some prs) => snd (pc_work (sf_applicable X0 mappers) sf_add (mkAH [] []) EnrichMode prs (rec0, ctx_new)) = Panic
  | _ => False
  end.
Proof. lazy. reflexivity. Qed.
Example C120_hypotheses_case :
  let r := mkSRule "b" "" "low" [] [SId "sel"] [("sel", mkSearch [] [[mkFM "Image" ["contains"] ["sf.proc.exe["]]])] in
  sr_conds r = [SId "sel"] /\ mget "sel" (sr_searches r) = Some (mkSearch [] [[mkFM "Image" ["contains"] ["sf.proc.exe["]]]) /\
  target ex_maps "Image" "sf.proc.exe" /\ cut_off mappers "sf.proc.exe[" /\ ~ transforming "contains" /\ mod_op "contains" OpIContains.
Proof.
  split; [reflexivity|]. split; [reflexivity|]. split; [left; exists ["other"]; reflexivity|].
  split; [exact (proj1 C120_falco_case)|]. split; [|constructor].
  intros H. cbn in H. intuition discriminate.
Qed.
(** The rules of C17's example are safe. *)
Example C120_safe_case :
  match pc_compile (sf_test X0 mappers) ex_maps ex_pmatch ex_ord [Some None; Some (Some ex_rule)] with
  | Ok (Some prs) => map (fun pr => pr_cond pr (rec0, ctx_new)) prs = [Ok true; Ok false; Ok true]
  | _ => False
  end.
Proof. lazy. reflexivity. Qed.
