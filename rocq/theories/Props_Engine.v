(** * Properties C20-C22: what a worker does to a record, actions, engine configuration. *)
From Verif Require Import GoBase GoFacts Predicates SpecStrings FlatRecord FieldTables Samples FalcoModel SpecFalco SpecFlat
  EngineModel SpecEngine EngineFacts EngineFlat SpecEngineFlat EngineFacts2.

(** C20.  A record on which an enabled filter holds is left untouched, without any effect. *)
Theorem C20_dropped :
  forall (R : Type) applicable add_rule (ah : ahandler R) m filters rules r f,
  In f filters -> f_enabled f = true -> f_cond f r = true ->
  work applicable add_rule ah m filters rules r = (r, []).
Proof. exact @work_dropped. Qed.
Print Assumptions C20_dropped.
(** Any other record: the rules that fire, in declaration order and each once, each give one block
    of effects; the record is then pushed once, last, unless nothing fired in alert mode. *)
Theorem C20_kept :
  forall (R : Type) applicable add_rule (ah : ahandler R) same m filters rules r,
  inert same applicable add_rule ah rules ->
  (forall f, In f filters -> f_enabled f = true -> f_cond f r = true -> False) ->
  let (r', es) := work applicable add_rule ah m filters rules r in
  exists fired es0, selects (fires applicable r) rules fired /\ blocks ah fired es0 /\ same r r' /\
    ((m = EnrichMode \/ fired <> []) /\ es = es0 ++ [FOut r'] \/ m = AlertMode /\ fired = [] /\ es = [] /\ r' = r).
Proof. exact @work_kept. Qed.
Print Assumptions C20_kept.
(** What the context records is what was annotated. *)
Theorem C20_annotations_recorded :
  forall (R T : Type) applicable add_rule (ah : ahandler R) (get : R -> list T) (mt : rule R -> T),
  (forall r ru, get (add_rule r ru) = get r ++ [mt ru]) ->
  (forall a f r, find_action ah a = Some f -> get (fst (f r)) = get r) ->
  forall m filters rules r,
  let (r', es) := work applicable add_rule ah m filters rules r in get r' = get r ++ map mt (annots es).
Proof. exact @work_get. Qed.
Print Assumptions C20_annotations_recorded.
(** End to end on flattened records with Falco policies: from policy files to the disposition of a
    record, in terms of the policy text only. *)
Theorem C20_falco_end_to_end :
  forall X M typ, map_str X M "sf.type" = Ok typ ->
  forall n fs rules filters ah m fr ctx,
  files_plain fs -> compile (sf_ops X M) n fs = Ok (Some (rules, filters)) -> benign ah ->
  (forall o d it, In (o, d) (rule_occs (occs [] fs)) -> In (OPrefilter it) (rd_opts d) -> clean_items it) ->
  let (r', es) := sf_work X M ah m filters rules (fr, ctx) in
  ((exists od, In od (filter_occs (occs [] fs)) /\ filter_fires X M fr od) -> r' = (fr, ctx) /\ es = []) /\
  ((forall od, In od (filter_occs (occs [] fs)) -> ~ filter_fires X M fr od) ->
   exists fired, selects (decl_fires X M typ fr) (rule_occs (occs [] fs)) fired /\
     fst r' = fr /\
     (exists new, ctx_getrules (snd r') = ctx_getrules ctx ++ new /\ Forall2 marked fired new) /\
     (m = EnrichMode \/ fired <> [] -> outs es = [r']) /\
     (m = AlertMode -> fired = [] -> es = [] /\ r' = (fr, ctx))).
Proof. exact falco_end_to_end. Qed.
Print Assumptions C20_falco_end_to_end.

Definition ex_act (tag : string) (fails : bool) : action sfrec := fun r => ((fst r, ctx_addtags [tag] (snd r)), fails).
Definition ex_ah : ahandler sfrec := new_ahandler [Some ("a1", ex_act "old" false); None; Some ("a2", ex_act "two" true); Some ("a1", ex_act "one" true)].
Definition ex_policy : list file :=
  [Some ([DRule (mkRuleDecl "r1" "" [[TBin "sf.opflags" BEq "WRITE"]] [OActions (mkItems ["a1"; "nope"; "a2"] false)]);
          DRule (mkRuleDecl "off" "" [[TExists "sf.type"]] [OEnabled "false"]);
          DRule (mkRuleDecl "pe" "" [[TExists "sf.type"]] [OPrefilter (mkItems ["PE"] false)]);
          DRule (mkRuleDecl "r2" "" [[TExists "sf.proc.exe"]] [OPrefilter (mkItems ["'FE'"; "PE"] false)]);
          DFilter (mkFilterDecl "opt" [[TBin "sf.proc.exe" BStartswith "/opt"]] None)], false)].
Definition ex_run (fs : list file) (m : mode) : option (list string * list string * nat) :=
  match compile (sf_ops X0 mappers) 9 fs with
  | Ok (Some (rules, filters)) =>
      let (r', es) := sf_work X0 mappers ex_ah m filters rules (rec0, ctx_new) in
      Some (map m_name (ctx_getrules (snd r')), ctx_gettags (snd r'), length (outs es))
  | _ => None
  end.
Example C20_case :
  ex_run ex_policy AlertMode = Some (["r1"; "r2"], ["one"; "two"], 1) /\
  ex_run [Some ([DRule (mkRuleDecl "n" "" [[TBin "sf.opflags" BEq "MKDIR"]] [])], false)] AlertMode = Some ([], [], 0) /\
  ex_run [Some ([DRule (mkRuleDecl "n" "" [[TBin "sf.opflags" BEq "MKDIR"]] [])], false)] EnrichMode = Some ([], [], 1) /\
  ex_run [Some ([DFilter (mkFilterDecl "f" [[TExists "sf.type"]] None); DRule (mkRuleDecl "n" "" [[TExists "sf.type"]] [])], false)] EnrichMode = Some ([], [], 0).
Proof. vm_compute. repeat split; reflexivity. Qed.
Example C20_hypotheses_case :
  files_plain ex_policy /\ benign ex_ah /\
  (forall o d it, In (o, d) (rule_occs (occs [] ex_policy)) -> In (OPrefilter it) (rd_opts d) -> clean_items it).
Proof.
  split; [|split].
  - intros f d [<-|[]] Hd. simpl in Hd. repeat destruct Hd as [<-|Hd]; try contradiction; reflexivity.
  - intros a f r. unfold ex_ah, find_action, new_ahandler. simpl. unfold mset. simpl.
    destruct (seqb a "a1"); [intros H; inversion H; split; reflexivity|].
    destruct (seqb a "a2"); [intros H; inversion H; split; reflexivity|].
    discriminate.
  - intros o d it Hd Hi. simpl in Hd. repeat destruct Hd as [Hd|Hd]; try contradiction; inversion Hd; subst; simpl in Hi;
      repeat destruct Hi as [Hi|Hi]; try contradiction; inversion Hi; subst; repeat split; try discriminate; repeat constructor; discriminate.
Qed.

(** C21.  The actions of a matched rule: the known ones, in order, each once (failures do not
    stop the rest), each on the function registered under its name, chained on the record. *)
Theorem C21_actions :
  forall (R : Type) (ah : ahandler R) ru r,
  let (r', es) := handle_actions ah ru r in
  selects (fun a => find_action ah a <> None) (r_actions ru) (acts es) /\
  length es = length (acts es) /\
  (forall a f x, In (FAct a f x) es -> find_action ah a = Some f) /\
  thread r es r'.
Proof. exact @handle_actions_spec. Qed.
Print Assumptions C21_actions.
(** A built-in action shadows a user-defined one; among the user-defined ones the last loaded wins. *)
Theorem C21_action_lookup :
  forall (R : Type) (bi : gomap (action R)) fs a f,
  find_action (mkAH bi (load_user [] fs)) a = Some f <->
  mget a bi = Some f \/ (mget a bi = None /\ declares fs a f).
Proof. exact @find_action_spec. Qed.
Print Assumptions C21_action_lookup.
Example C21_case :
  acts (snd (handle_actions ex_ah (mkRule "r" "" c_true ["a2"; "zz"; "a1"; "a2"] [] PLow [] true) (rec0, ctx_new))) = ["a2"; "a1"; "a2"].
Proof. reflexivity. Qed.

(** C22.  Every option depends only on its own key and has its documented default. *)
Theorem C22_config :
  forall conf, let c := fst (create_config conf) in
  text_option conf "policies" "" (c_policies c) /\ text_option conf "config" "" (c_config c) /\
  text_option conf "version" "" (c_version c) /\ text_option conf "jsonschemaversion" "" (c_schema c) /\
  text_option conf "buildnumber" "" (c_build c) /\ text_option conf "actiondir" "../resources/actions" (c_actiondir c) /\
  word_option conf "language" [("falco", Falco); ("sigma", Sigma)] Falco Falco (c_language c) /\
  word_option conf "mode" [("enrich", EnrichMode); ("alert", AlertMode)] EnrichMode AlertMode (c_mode c) /\
  word_option conf "monitor" [("none", NoneType); ("local", LocalType)] NoneType NoneType (c_monitor c) /\
  number_option conf "concurrency" 5 (c_concurrency c) /\
  number_option conf "bench.rulesetsize" (-1) (c_benchsize c) /\ number_option conf "bench.ruleindex" (-1) (c_benchindex c) /\
  (forall w, given conf "monitor.interval" w ->
     c_interval c = match parse_int64 w with Some z => wrap64 (z * 1000000000) | None => 30000000000%Z end) /\
  (not_given conf "monitor.interval" -> c_interval c = 30000000000%Z).
Proof. exact create_config_spec. Qed.
Print Assumptions C22_config.
(** Refuted: "malformed options keep their default".  A malformed concurrency never yields the
    default of 5; it becomes 0 (no worker at all) or an integer bound. *)
Theorem C22_malformed_concurrency_refuted :
  forall conf w, given conf "concurrency" w -> parse_int64 w = None ->
  c_concurrency (fst (create_config conf)) = 0%Z \/ c_concurrency (fst (create_config conf)) = int64_max
  \/ c_concurrency (fst (create_config conf)) = int64_min.
Proof. exact create_config_malformed. Qed.
Print Assumptions C22_malformed_concurrency_refuted.
(** A number too large for the machine is replaced by the nearest bound: with a large negative one
    the engine then crashes at start (C85). *)
Theorem C22_concurrency_clamped :
  forall conf z, given conf "concurrency" (format_int z) ->
  c_concurrency (fst (create_config conf)) = Z.max (-9223372036854775808) (Z.min 9223372036854775807 z).
Proof. exact create_config_clamped. Qed.
Print Assumptions C22_concurrency_clamped.
Example C22_clamped_case : c_concurrency (fst (create_config [("concurrency", CStr (format_int (-99999999999999999999)))])) = (-9223372036854775808)%Z.
Proof. vm_compute. reflexivity. Qed.
(** Refuted: "a malformed option is reported".  A well-formed bench.ruleindex clears the error of
    every other numeric option. *)
Theorem C22_error_masked_refuted :
  forall conf w z, given conf "bench.ruleindex" w -> parse_int64 w = Some z -> snd (create_config conf) = false.
Proof. exact create_config_masked. Qed.
Print Assumptions C22_error_masked_refuted.
Example C22_case :
  let conf := [("mode", CStr "Alert"); ("concurrency", CStr "8x"); ("bench.ruleindex", CStr "3"); ("version", COther)] in
  let (c, err) := create_config conf in
  c_mode c = EnrichMode /\ c_concurrency c = 0%Z /\ c_benchindex c = 3%Z /\ c_version c = "" /\ err = false /\
  c_monitor c = NoneType /\ c_interval c = 30000000000%Z.
Proof. vm_compute. repeat split; reflexivity. Qed.
