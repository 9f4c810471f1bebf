(** * EngineModel: core/policyengine/engine/{interpreter,actionhandler,config}.go (sequential part). *)
From Verif Require Import GoBase Predicates.

(** ** config.go *)
(** strconv.Atoi: the value returned (0 on a syntax error, the nearest bound on overflow) and
    whether err != nil. *)
Definition atoi (s : string) : Z * bool :=
  let z := match s with
           | String "-"%char s' => option_map Z.opp (parse_nonempty s')
           | String "+"%char s' => parse_nonempty s'
           | _ => parse_nonempty s
           end in
  match z with
  | None => (0%Z, true)
  | Some v => if in_int64 v then (v, false)
              else ((if Z.ltb v 0 then int64_min else int64_max), true)
  end.

(** config.go:114-181 *)
Inductive mode := EnrichMode | AlertMode.
Definition mode_string (m : mode) : string := match m with EnrichMode => "enrich" | AlertMode => "alert" end.
Definition parse_mode (s : string) : mode :=
  if seqb (mode_string EnrichMode) s then EnrichMode
  else if seqb (mode_string AlertMode) s then AlertMode else EnrichMode.
Inductive montype := NoneType | LocalType.
Definition montype_string (m : montype) : string := match m with NoneType => "none" | LocalType => "local" end.
Definition parse_montype (s : string) : montype :=
  if seqb (montype_string NoneType) s then NoneType
  else if seqb (montype_string LocalType) s then LocalType else NoneType.
Inductive language := Falco | Sigma.
Definition language_string (m : language) : string := match m with Falco => "falco" | Sigma => "sigma" end.
Definition parse_language (s : string) : language :=
  if seqb (language_string Falco) s then Falco
  else if seqb (language_string Sigma) s then Sigma else Falco.

(** A configuration value: a string, or anything else (the type assertion fails). *)
Inductive cval := CStr (s : string) | COther.
Definition cstr (k : string) (conf : gomap cval) : option string :=
  match mget k conf with Some (CStr s) => Some s | _ => None end.

(** config.go:47-61; MonitorInterval in nanoseconds. *)
Record config := mkConfig {
  c_policies : string; c_config : string; c_language : language; c_mode : mode; c_version : string;
  c_schema : string; c_build : string; c_monitor : montype; c_interval : Z; c_concurrency : Z;
  c_actiondir : string; c_benchsize : Z; c_benchindex : Z }.

Definition second : Z := 1000000000%Z.
(** config.go:64-112 [CreateConfig]: the configuration and whether the returned err is set
    ([err] is overwritten by every numeric option met). *)
Definition create_config (conf : gomap cval) : config * bool :=
  let str k d := match cstr k conf with Some v => v | None => d end in
  let enum {A} (parse : string -> A) k d := match cstr k conf with Some v => parse v | None => d end in
  let err0 := false in
  let '(interval, err1) := match cstr "monitor.interval" conf with
                           | Some v => let (d, e) := atoi v in
                                       (if e then (30 * second)%Z else wrap64 (d * second), e)
                           | None => ((30 * second)%Z, err0) end in
  let '(conc, err2) := match cstr "concurrency" conf with Some v => atoi v | None => (5%Z, err1) end in
  let '(bsize, err3) := match cstr "bench.rulesetsize" conf with Some v => atoi v | None => ((-1)%Z, err2) end in
  let '(bidx, err4) := match cstr "bench.ruleindex" conf with Some v => atoi v | None => ((-1)%Z, err3) end in
  (mkConfig (str "policies" "") (str "config" "") (enum parse_language "language" Falco)
     (enum parse_mode "mode" AlertMode) (str "version" "") (str "jsonschemaversion" "") (str "buildnumber" "")
     (enum parse_montype "monitor" NoneType) interval conc (str "actiondir" "../resources/actions") bsize bidx, err4).

Section Engine.
Context {R : Type}.

(** ** actionhandler.go *)
(** An action updates the record and reports whether it failed. *)
Definition action := R -> R * bool.
Record ahandler := mkAH { ah_builtin : gomap action; ah_user : gomap action }.
(** actionhandler.go:67-97: [None] is a file that does not load, has no Action symbol or has one
    of the wrong type; it is skipped. *)
Fixpoint load_user (m : gomap action) (files : list (option (string * action))) : gomap action :=
  match files with
  | [] => m
  | None :: fs => load_user m fs
  | Some (name, f) :: fs => load_user (mset name f m) fs
  end.
(** actionhandler.go:49-64 *)
Definition new_ahandler (files : list (option (string * action))) : ahandler := mkAH [] (load_user [] files).

(** What a worker does to the outside world. *)
Inductive effect :=
| FAnnot (ru : rule R)                         (* the contextualizer was given the rule *)
| FAct (name : string) (f : action) (r : R)    (* action [f], found under [name], ran on [r] *)
| FOut (r : R).                                (* the record was pushed downstream *)

(** actionhandler.go:121-127 *)
Definition find_action (ah : ahandler) (a : string) : option action :=
  match mget a (ah_builtin ah) with Some f => Some f | None => mget a (ah_user ah) end.
(** actionhandler.go:116-132; a failure is only logged. *)
Fixpoint run_actions (ah : ahandler) (names : list string) (r : R) : R * list effect :=
  match names with
  | [] => (r, [])
  | a :: names' =>
      match find_action ah a with
      | None => run_actions ah names' r
      | Some f => let (r1, failed) := f r in
                  let (r2, es) := run_actions ah names' r1 in (r2, FAct a f r :: es)
      end
  end.
Definition handle_actions (ah : ahandler) (ru : rule R) (r : R) : R * list effect := run_actions ah (r_actions ru) r.

(** ** interpreter.go *)
Variable applicable : R -> rule R -> bool.    (* pi.prefilter.IsApplicable *)
Variable add_rule : R -> rule R -> R.         (* pi.ctx.AddRules *)
Variable ah : ahandler.

(** interpreter.go:187-194 *)
Fixpoint eval_filters (fs : list (filter R)) (r : R) : bool :=
  match fs with
  | [] => false
  | f :: fs' => if f_enabled f && c_eval (f_cond f) r then true else eval_filters fs' r
  end.
(** interpreter.go:168-176 *)
Fixpoint apply_rules (rules : list (rule R)) (r : R) (matched : bool) : R * bool * list effect :=
  match rules with
  | [] => (r, matched, [])
  | ru :: rules' =>
      if r_enabled ru && applicable r ru && c_eval (r_cond ru) r then
        let r1 := add_rule r ru in
        let (r2, es) := handle_actions ah ru r1 in
        let '(r3, m, es') := apply_rules rules' r2 true in
        (r3, m, FAnnot ru :: es ++ es')
      else apply_rules rules' r matched
  end.
(** interpreter.go:159-181: one iteration of the worker loop.  [out <> nil] always holds for the
    policy engine (policyengine.go:195). *)
Definition work (m : mode) (filters : list (filter R)) (rules : list (rule R)) (r : R) : R * list effect :=
  if eval_filters filters r then (r, [])
  else
    let '(r', matched, es) := apply_rules rules r (match m with EnrichMode => true | AlertMode => false end) in
    (r', if matched then es ++ [FOut r'] else es).

(** interpreter.go:115-133: the rule selection for benchmarks (performance logging only). *)
Definition bench_rules (perf : bool) (idx size : Z) (rules : list (rule R)) : list (rule R) :=
  let n := Z.of_nat (length rules) in
  if perf then
    if (Z.leb 0 idx && Z.ltb idx n)%Z then
      match nth_error rules (Z.to_nat idx) with Some ru => [ru] | None => [] end
    else if (Z.leb 0 size && Z.leb size n)%Z then firstn (Z.to_nat size) rules
    else rules
  else rules.
End Engine.
Arguments effect R : clear implicits.
Arguments action R : clear implicits.
Arguments ahandler R : clear implicits.
