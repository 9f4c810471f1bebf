(** * SpecInit: when the policy engine starts, and what it does with a record afterwards. *)
From Coq Require Import Permutation.
From Verif Require Import GoBase Predicates FlatRecord FalcoModel SpecFalco SpecFlat SigmaModel SpecSigma LexerModel SpecLexer EngineModel EngineFlat SpecEngine
  SpecEngineFlat PoolModel SpecPool MonitorModel SpecMonitor InitModel.

(** ** Start-up *)
(** The options that matter, each read off the configuration alone. *)
Definition no_policies (conf : gomap cval) : Prop := forall d, given conf "policies" d -> d = "".
Definition policies_in (conf : gomap cval) (d : string) : Prop := given conf "policies" d /\ d <> "".
Definition mode_is (conf : gomap cval) (m : mode) : Prop :=
  word_option conf "mode" [("enrich", EnrichMode); ("alert", AlertMode)] EnrichMode AlertMode m.
Definition language_is (conf : gomap cval) (l : language) : Prop :=
  word_option conf "language" [("falco", Falco); ("sigma", Sigma)] Falco Falco l.
Definition monitor_is (conf : gomap cval) (m : montype) : Prop :=
  word_option conf "monitor" [("none", NoneType); ("local", LocalType)] NoneType NoneType m.

Section S.
Context {R : Type}.
Variable ops : operations R.
Variable pmatch : string -> string -> bool.
Variable ord : srule -> list nat -> list (string * search).
Variable fuel : nat.
(** The files found under [d] compile, in the configured language, to these rules and filters. *)
Inductive compiles (h : host) (conf : gomap cval) (d : string) (rules : list (rule R)) (filters : list (filter R)) : Prop :=
| cp_falco paths : language_is conf Falco -> h_recursive h d = Some paths -> paths <> [] ->
    compile ops fuel (map (h_falco h) paths) = Ok (Some (rules, filters)) -> compiles h conf d rules filters
| cp_sigma paths cfg maps : language_is conf Sigma -> h_recursive h d = Some paths -> paths <> [] ->
    text_option conf "config" "" cfg -> h_sigconf h cfg = Some maps ->
    s_compile ops maps pmatch ord (map (h_sigma h) paths) = Ok (Some rules) -> filters = [] -> compiles h conf d rules filters.
(** With a monitor, start-up also needs a watcher and a file *.yaml directly in the directory. *)
Definition watchable (h : host) (d : string) : Prop :=
  h_watcher h = true /\ exists paths, h_flat h d = Some paths /\ paths <> [].
End S.

(** ** The life of a record *)
(** What becomes of a record, given whether a filter fires ([drop]) and which of the rules fire:
    nothing if a filter fires; else it leaves the engine, with its data unchanged and exactly what is
    to be told of the rules that fire added to its context, in order, unless in alert mode none fires. *)
Definition outcome {D} (drop : Prop) (rules : list D) (fires : D -> Prop) (marks : D -> rmeta -> Prop)
    (m : mode) (r : sfrec) (o : list sfrec) : Prop :=
  (drop /\ o = []) \/
  (~ drop /\ exists fired new, selects fires rules fired /\ Forall2 marks fired new /\
     (m = AlertMode /\ fired = [] /\ o = [] \/
      (m = EnrichMode \/ fired <> []) /\ exists r', o = [r'] /\ fst r' = fst r /\
        ctx_getrules (snd r') = ctx_getrules (snd r) ++ new)).
(** Every reading of the text keeps to the constructs the compiler supports: no inline lists
    ([decl_plain], see C16) and well-formed prefilters. *)
Definition ok_text (t : option string) : Prop :=
  forall ds d, text_reads t ds -> In d ds -> decl_plain d = true /\
    (forall rd it, d = DRule rd -> In (OPrefilter it) (rd_opts rd) -> clean_items it).
Section E.
Variable X : sfgo_fns.
Variable M : gomap fieldmap.
Variable typ : flatrec -> string.
(** The rules and filters declared by readings of the policy texts. *)
Definition declared (dss : list (list decl)) : list occurrence := occs [] (map (fun ds => Some (ds, false)) dss).
(** What becomes of a record by the declared filters and rules. *)
Definition disposed (dss : list (list decl)) (m : mode) (r : sfrec) (o : list sfrec) : Prop :=
  outcome (exists od, In od (filter_occs (declared dss)) /\ filter_fires X M (fst r) od)
    (rule_occs (declared dss)) (decl_fires X M typ (fst r)) marked m r o.
End E.

(** ** Sigma
    The conditions of the Sigma rules, in order; a rule with several conditions counts several times. *)
Definition s_conditions (srs : list srule) : list (srule * sexpr) := concat (map (fun r => map (fun e => (r, e)) (sr_conds r)) srs).
Definition s_marked (re : srule * sexpr) (mt : rmeta) : Prop :=
  m_name mt = sr_id (fst re) /\ m_desc mt = sr_desc (fst re) /\ m_tags mt = map TagStr (sr_tags (fst re)) /\
  level_is (sr_level (fst re)) (m_prio mt) /\ m_actions mt = [].
(** What becomes of a record by the conditions of Sigma rules, with the field names [maps] translates. *)
Definition s_disposed (X : sfgo_fns) (M : gomap fieldmap) (pmatch : string -> string -> bool) (maps : gomap (list string)) (srs : list srule)
    (m : mode) (r : sfrec) (o : list sfrec) : Prop :=
  outcome False (s_conditions srs) (fun re => cond_holds maps pmatch (flat_satomic X M (fst r)) (sr_searches (fst re)) (snd re)) s_marked m r o.
(** The Sigma rules a host shows under [d], and the translation of names in its configuration file. *)
Definition sigma_of (h : host) (conf : gomap cval) (d : string) (ms : gomap (list string) * list srule) : Prop :=
  exists paths cfg, h_recursive h d = Some paths /\ text_option conf "config" "" cfg /\ h_sigconf h cfg = Some (fst ms) /\
    readable (map (h_sigma h) paths) (snd ms).

(** ** Eras
    The observations of the directory in a schedule, in order. *)
Definition batches {R} (chs : list (lchoice R)) : list host :=
  flat_map (fun ch => match ch with LFiles _ _ _ h => [h] | LCh _ => [] end) chs.
(** The policy texts a host shows under [d]. *)
Definition texts_of (h : host) (d : string) (texts : list (option string)) : Prop :=
  exists paths, h_recursive h d = Some paths /\ texts = map (h_text h) paths.
(** The front end is faithful to the texts under [d], and these keep to the supported constructs. *)
Definition faithful (h : host) (d : string) : Prop :=
  h_perf h = false /\
  forall paths p, h_recursive h d = Some paths -> In p paths -> parsed (h_text h p) (h_falco h p) /\ ok_text (h_text h p).
