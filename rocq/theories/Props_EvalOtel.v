(** * Property C121: evaluating policies on OpenTelemetry logs, panics included. *)
From Coq Require Import Permutation.
From Verif Require Import GoBase GoFacts Predicates FalcoModel SpecFalco SigmaModel SpecSigma EngineModel SpecEngine OtelModel SpecOtel OtelEngine SpecOtelEngine OtelEngineFacts
  InitModel SpecInit EvalModel SpecEval EvalOtel SpecEvalOtel EvalOtelFacts EvalOtelFacts2 EvalOtelFacts3 EvalOtelFacts4 Props_OtelEngine.
From Verif Require Props_Sigma.
Local Open Scope nat_scope.

Section P.
Variable D : Type.
Variable parse_float : string -> option D.
Variables deq dlt dle : D -> D -> bool.
Variable regcomp : string -> option (string -> string).
Variable enum : logs D -> rule (logs D) -> list string -> list string.
Notation ops := (o_ops D parse_float deq dlt dle regcomp).
Notation of_compile := (of_compile D parse_float deq dlt dle).
Notation os_compile := (os_compile D parse_float deq dlt dle).
Notation of_disposed := (of_disposed D parse_float deq dlt dle).
Notation os_disposed := (os_disposed D parse_float deq dlt dle).
Notation walked := (walked D enum).

(** C121.  An accepted Falco policy: whatever the log, the filters and then the rules are evaluated from
    left to right; the first test that panics ends the process, nothing after it being evaluated and
    nothing being passed on; and where the evaluation ends with Booleans, what becomes of the log is what
    C93 says. *)
Theorem C121_falco :
  walked -> forall n dss x, files_plain (map (fun ds => Some (ds, false)) dss) ->
  compile ops n (map (fun ds => Some (ds, false)) dss) = Ok (Some x) ->
  exists prs pfs, of_compile n dss = Ok (prs, pfs) /\
    forall ah m r, harmless D ah -> regular D r ->
      let (es, o) := op_work D enum ah m pfs prs r in
      of_disposed dss m r (passed es o) /\
      forall os, passed es o = Ok os -> o_disposed D parse_float deq dlt dle dss m r os.
Proof.
  intros W n dss x Hp Hc. destruct (accepted_logs D parse_float deq dlt dle regcomp n dss x Hc) as (prs & pfs & E). exists prs, pfs. split; [exact E|].
  intros ah m r Hah Hr. pose proof (falco_worker D parse_float deq dlt dle enum W n dss prs pfs ah m r Hp Hah Hr E) as K.
  destruct (op_work D enum ah m pfs prs r) as [es o]. split; [exact K|]. intros os Eo. rewrite Eo in K. exact (falco_says D parse_float deq dlt dle regcomp n dss x m r os Hp Hc K).
Qed.
(** A Sigma policy, likewise. *)
Theorem C121_sigma :
  walked -> forall pmatch ord, (forall r p, Permutation (ord r p) (sr_searches r)) -> forall maps fs rs,
  s_compile ops maps pmatch ord fs = Ok (Some rs) ->
  exists prs srs, os_compile maps pmatch ord fs = Ok (Some prs) /\ readable fs srs /\
    forall ah m r, harmless D ah -> regular D r ->
      let (es, o) := op_work D enum ah m [] prs r in
      os_disposed pmatch maps srs m r (passed es o) /\
      forall os, passed es o = Ok os -> so_disposed D parse_float deq dlt dle regcomp pmatch maps srs m r os.
Proof. intros W pmatch ord Hord maps fs rs. exact (sigma_says D parse_float deq dlt dle regcomp enum W pmatch ord Hord maps fs rs). Qed.
(** Every policy is accepted at start-up whose definitions do not go round in circles, whatever its
    operands, and its loading never ends the process. *)
Theorem C121_falco_accepted :
  forall dss, let fs := map (fun ds => Some (ds, false)) dss in
  (forall o, In o (occs [] fs) -> acyclic (oc_macros o) expr_refs /\ acyclic (oc_lists o) (fun l => l)) ->
  exists n x, forall m, n <= m -> compile ops m fs = Ok (Some x) /\ exists prs pfs, of_compile m dss = Ok (prs, pfs).
Proof. exact (falco_accepted D parse_float deq dlt dle regcomp). Qed.
(** A Sigma policy is accepted if it has no base64Offset or cidr modifier and no empty mapping. *)
Theorem C121_sigma_accepted :
  forall pmatch ord, (forall r p, Permutation (ord r p) (sr_searches r)) -> forall maps fs srs,
  readable fs srs -> (forall r n s, In r srs -> In (n, s) (sr_searches r) -> search_compiles maps s) ->
  exists rs prs, s_compile ops maps pmatch ord fs = Ok (Some rs) /\ os_compile maps pmatch ord fs = Ok (Some prs).
Proof. exact (sigma_accepted D parse_float deq dlt dle regcomp). Qed.
(** No log ends the process that has a resource and no value that makes a test of an operand crash, if the
    policy does not look at the tags noted by the engine itself. *)
Theorem C121_falco_safe_partial :
  forall (K : string -> Prop) dss m res scopes o, ~ K "sf.processor.tags" ->
  policy_looks dss K ->
  Forall (foreign D) scopes -> calm D K (mkLogs D res scopes) ->
  of_disposed dss m (mkLogs D res scopes) o -> o <> Panic.
Proof. exact (falco_calm D parse_float deq dlt dle regcomp). Qed.
Theorem C121_sigma_safe_partial :
  forall pmatch maps (K : string -> Prop) srs m res scopes o, ~ K "sf.processor.tags" ->
  (forall r n s em fm t, In r srs -> In (n, s) (sr_searches r) -> In em (se_matchers s) -> In fm em -> target maps (fm_field fm) t -> K t) ->
  Forall (foreign D) scopes -> calm D K (mkLogs D res scopes) ->
  os_disposed pmatch maps srs m (mkLogs D res scopes) o -> o <> Panic.
Proof. exact (sigma_calm D parse_float deq dlt dle regcomp). Qed.
(** Refuted for logs without a resource: if each condition begins with a test of the log and some
    declaration is not switched off, such a log ends the process, whatever else is in it. *)
Theorem C121_bare_refuted :
  forall r, l_resource D r = None -> forall dss m o,
  (forall od, In od (rule_occs (declared dss)) -> starts (oc_macros (fst od)) (rd_cond (snd od))) ->
  (forall od, In od (filter_occs (declared dss)) -> starts (oc_macros (fst od)) (fd_cond (snd od))) ->
  (exists od, In od (rule_occs (declared dss)) /\ ~ rule_off (snd od)) \/ (exists od, In od (filter_occs (declared dss)) /\ ~ filter_off (snd od)) ->
  of_disposed dss m r o -> o = Panic.
Proof. exact (falco_bare D parse_float deq dlt dle). Qed.
End P.
Print Assumptions C121_falco.
Print Assumptions C121_sigma.
Print Assumptions C121_falco_accepted.
Print Assumptions C121_sigma_accepted.
Print Assumptions C121_falco_safe_partial.
Print Assumptions C121_sigma_safe_partial.
Print Assumptions C121_bare_refuted.

(** ** Cases *)
Definition lx_compile := of_compile Z (fun _ => None) Z.eqb Z.ltb Z.leb 9.
Definition lx_op (m : mode) (ds : list decl) (r : logs Z) : option (res (list (logs Z))) :=
  match lx_compile [ds] with
  | Ok (prs, pfs) => let (es, o) := op_work Z (fun _ _ l => rev l) lx_ah m pfs prs r in Some (passed es o)
  | _ => None
  end.
Definition lx_bare : logs Z := mkLogs Z None [mkSL Z None [[("sf.opflags", AStr Z "EXEC")]]].
Definition lx_rule n c ts := DRule (mkRuleDecl n "d" c ts).
Definition is_zsh := TBin "sf.proc.name" BEq "zsh".
Definition tagged := TBin "sf.processor.tags" BStartswith "t".
(** C93's policy: the second rule looks at what the first one noted; without tags it is the end. *)
Example C121_falco_case :
  lx_op EnrichMode lx_pol (lx_log "zsh") = Some (Ok [mkLogs Z (Some [("sf.proc.name", AStr Z "zsh")]) [mkSL Z None [[("sf.opflags", AStr Z "EXEC")]]; own Z ["r1"; "r2"] ["t"; "u"; "v"]]]) /\
  lx_op AlertMode lx_pol (lx_log "vi") = Some (Ok []) /\
  lx_op EnrichMode [lx_rule "r1" [[is_zsh]] []; lx_rule "r2" [[tagged]] []] (lx_log "zsh") = Some Panic /\
  lx_op EnrichMode [lx_rule "r1" [[is_zsh]] []; lx_rule "r2" [[tagged]] []] (lx_log "vi") = Some (Ok [lx_log "vi"]).
Proof. vm_compute. auto. Qed.
(** The order of the operands decides. *)
Example C121_order_case :
  lx_op EnrichMode [lx_rule "r1" [[is_zsh]] []; lx_rule "r2" [[is_zsh]; [tagged]] []] (lx_log "zsh") =
    Some (Ok [mkLogs Z (Some [("sf.proc.name", AStr Z "zsh")]) [mkSL Z None [[("sf.opflags", AStr Z "EXEC")]]; own Z ["r1"; "r2"] []]]) /\
  lx_op EnrichMode [lx_rule "r1" [[is_zsh]] []; lx_rule "r2" [[tagged]; [is_zsh]] []] (lx_log "zsh") = Some Panic /\
  lx_op AlertMode [lx_rule "r1" [[TNot is_zsh]] []] lx_bare = Some Panic /\
  lx_op AlertMode [lx_rule "r1" [[TVar "none"; is_zsh]] []] lx_bare = Some (Ok []) /\
  lx_op AlertMode [lx_rule "r1" [[is_zsh]] [OEnabled "false"]] lx_bare = Some (Ok []) /\
  lx_op AlertMode [DFilter (mkFilterDecl "f" [[TExists "sf.opflags"]] None)] lx_bare = Some Panic.
Proof. vm_compute. auto 10. Qed.
Example C121_hypotheses_case :
  walked Z (fun _ _ l => rev l) /\ (exists x, compile lx_ops 9 [Some (lx_pol, false)] = Ok (Some x)) /\ files_plain [Some (lx_pol, false)] /\
  harmless Z lx_ah /\ regular Z (lx_log "zsh") /\ regular Z lx_bare /\
  (forall od, In od (rule_occs (declared [[lx_rule "r1" [[TNot is_zsh]] []]])) -> starts (oc_macros (fst od)) (rd_cond (snd od))) /\
  (exists od, In od (rule_occs (declared [[lx_rule "r1" [[TNot is_zsh]] []]])) /\ ~ rule_off (snd od)).
Proof.
  split; [intros r ru l; apply Permutation_sym, Permutation_rev|].
  split.
  { assert (H : match compile lx_ops 9 [Some (lx_pol, false)] with Ok (Some _) => true | _ => false end = true) by (vm_compute; reflexivity).
    revert H. generalize (compile lx_ops 9 [Some (lx_pol, false)]). intros [[x|]| | |] H; try discriminate H. exists x. reflexivity. }
  split; [intros f d [<-|[]] Hd; cbn in Hd; repeat (destruct Hd as [<-|Hd]; [reflexivity|]); destruct Hd|].
  split; [intros a f r H; discriminate|].
  assert (F : Forall (foreign Z) [mkSL Z None [[("sf.opflags", AStr Z "EXEC")]]]) by (constructor; [intros s H; discriminate|constructor]).
  split; [eexists _, _; split; [exact F|now left]|]. split; [eexists _, _; split; [exact F|now left]|].
  split.
  - intros od [<-|[]]. exists (TNot is_zsh), [], []. split; [reflexivity|]. constructor. constructor.
  - eexists. split; [now left|]. intros (s & (x & y & E & _) & _). destruct x; discriminate E.
Qed.
(** The conditions of C93's first rule look at one attribute, and the log is calm. *)
Example C121_safe_case :
  let dss := [[lx_rule "r1" [[is_zsh]] []]] in let K := fun k => k = "sf.proc.name" in
  ~ K "sf.processor.tags" /\ policy_looks dss K /\ calm Z K (lx_log "zsh") /\
  lx_op AlertMode (hd [] dss) (lx_log "zsh") <> Some Panic.
Proof.
  split; [discriminate|]. split; [|split; [exact (proj2 (proj2 (proj2 (proj2 (proj2 (proj2 C93_hypotheses_case))))) _)|vm_compute; discriminate]].
  split; [|intros od k []]. intros od k [<-|[]] (c & t & [<-|[]] & [<-|[]] & H). inversion H. reflexivity.
Qed.
(** Sigma rules. *)
Definition lx_srule (es : list sexpr) : srule := mkSRule "s1" "d" "high" ["t"] es [("sel", mkSearch [] [[mkFM "sf.proc.name" ["startswith"] ["z"]]])].
Definition lx_sop m (es : list sexpr) (r : logs Z) :=
  match os_compile Z (fun _ => None) Z.eqb Z.ltb Z.leb [] (fun _ _ => false) (fun r _ => sr_searches r) [Some (Some (lx_srule es))] with
  | Ok (Some prs) => let (e, o) := op_work Z (fun _ _ l => l) lx_ah m [] prs r in Some (passed e o)
  | _ => None
  end.
Example C121_sigma_case :
  lx_sop AlertMode [SId "sel"] (lx_log "zsh") = Some (Ok [mkLogs Z (Some [("sf.proc.name", AStr Z "zsh")]) [mkSL Z None [[("sf.opflags", AStr Z "EXEC")]]; own Z ["s1"] ["t"]]]) /\
  lx_sop AlertMode [SNot (SId "sel")] (lx_log "zsh") = Some (Ok []) /\
  lx_sop AlertMode [SNot (SId "sel")] lx_bare = Some Panic /\
  lx_sop EnrichMode [SId "absent"] lx_bare = Some (Ok [lx_bare]).
Proof. vm_compute. auto. Qed.
(** A policy that can be accepted: a macro that uses no macro, and a rule that uses it; and a Sigma rule. *)
Example C121_accepted_case :
  let ds := [DMacro "zsh" [[is_zsh]] None; lx_rule "r1" [[TVar "zsh"]; [TNot tagged]] []] in
  (forall o, In o (occs [] [Some (ds, false)]) -> acyclic (oc_macros o) expr_refs /\ acyclic (oc_lists o) (fun l => l)) /\
  (forall n s, In (n, s) (sr_searches (lx_srule [SId "sel"])) -> search_compiles [] s) /\
  lx_op AlertMode ds (lx_log "zsh") = Some (Ok [mkLogs Z (Some [("sf.proc.name", AStr Z "zsh")]) [mkSL Z None [[("sf.opflags", AStr Z "EXEC")]]; own Z ["r1"] []]]).
Proof.
  split; [|split].
  - assert (C : forall o, oc_earlier o = [] -> oc_whole o = [DMacro "zsh" [[is_zsh]] None; lx_rule "r1" [[TVar "zsh"]; [TNot tagged]] []] ->
      oc_pre o = [] \/ oc_pre o = [DMacro "zsh" [[is_zsh]] None] -> acyclic (oc_macros o) expr_refs /\ acyclic (oc_lists o) (fun l => l)).
    { intros [ea pre wh d] E1 E2 [E3|E3]; cbn in E1, E2, E3; subst; (split; exists (fun _ => 0); intros x v y H Hy Hd; exfalso; unfold oc_macros, oc_lists, visible in H; cbn -[seqb] in H; [|discriminate H]);
        (destruct (seqb x "zsh") in H; cbn in H; [|discriminate H]; injection H as <-; exact Hy). }
    intros o Ho. cbn in Ho. destruct Ho as [<-|[<-|[]]]; apply C; cbn; auto.
  - intros n s [E|[]]. injection E as <- <-. intros em fm [<-|[]] [<-|[]]. split; [|discriminate].
    intros m [<-|[]]. split; discriminate.
  - vm_compute. reflexivity.
Qed.
