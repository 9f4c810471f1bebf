(** * SpecEval: evaluating Sigma conditions from left to right, panics included. *)
From Coq Require Import Permutation.
From Verif Require Import GoBase Predicates FlatRecord FalcoModel SigmaModel SpecSigma.

(** Evaluating a conjunction or a disjunction from left to right: an operand that panics ends the
    evaluation, unless an operand before it has decided the outcome. *)
Inductive all_run {A} (run : A -> res bool -> Prop) : list A -> res bool -> Prop :=
| all_nil : all_run run [] (Ok true)
| all_stop a l : run a (Ok false) -> all_run run (a :: l) (Ok false)
| all_crash a l : run a Panic -> all_run run (a :: l) Panic
| all_next a l o : run a (Ok true) -> all_run run l o -> all_run run (a :: l) o.
Inductive any_run {A} (run : A -> res bool -> Prop) : list A -> res bool -> Prop :=
| any_nil : any_run run [] (Ok false)
| any_stop a l : run a (Ok true) -> any_run run (a :: l) (Ok true)
| any_crash a l : run a Panic -> any_run run (a :: l) Panic
| any_next a l o : run a (Ok false) -> any_run run l o -> any_run run (a :: l) o.

Section S.
Variable mappings : gomap (list string).
Variable pmatch : string -> string -> bool.
(** The outcome of a basic test on the record at hand. *)
Variable test : string -> string -> operator -> res bool.

(** The comparisons the modifiers name, in order; equality up to case if they name none. *)
Inductive named : list string -> list operator -> Prop :=
| nm_nil : named [] []
| nm_op m op mods l : mod_op m op -> named mods l -> named (m :: mods) (op :: l)
| nm_skip m mods l : (forall op, ~ mod_op m op) -> named mods l -> named (m :: mods) l.
Definition value_run (mods : list string) (f v : string) (o : res bool) : Prop :=
  exists t l, target mappings f t /\ named mods l /\
    all_run (fun op o => test t v op = o) (match l with [] => [OpIEq] | _ => l end) o.

(** The forms of a value, in the order they are tried. *)
Inductive forms : list string -> string -> list string -> Prop :=
| fs_nil v : forms [] v []
| fs_b64 mods v l : forms mods v l -> forms ("base64" :: mods) v (b64 v :: l)
| fs_dash mods v l : forms mods v l -> forms ("windash" :: mods) v (v :: windash v :: l)
| fs_same m mods v l : In m ["utf16"; "utf16le"; "utf16be"; "wide"] -> forms mods v l -> forms (m :: mods) v (v :: l)
| fs_skip m mods v l : ~ transforming m -> forms mods v l -> forms (m :: mods) v l.
Definition fm_value_run (fm : fieldmatcher) (v : string) (o : res bool) : Prop :=
  ((forall m, In m (fm_mods fm) -> ~ transforming m) /\ value_run (fm_mods fm) (fm_field fm) v o) \/
  exists m l, In m (fm_mods fm) /\ transforming m /\ forms (fm_mods fm) v l /\
    any_run (value_run (fm_mods fm) (fm_field fm)) l o.
Definition fm_run (fm : fieldmatcher) (o : res bool) : Prop :=
  (In "all" (fm_mods fm) /\ all_run (fm_value_run fm) (fm_values fm) o) \/
  (~ In "all" (fm_mods fm) /\ any_run (fm_value_run fm) (fm_values fm) o).
Definition search_run (s : search) (o : res bool) : Prop :=
  (se_keywords s <> [] /\ o = Ok false) \/
  (se_keywords s = [] /\ all_run fm_run (concat (se_matchers s)) o).

(** A condition; the searches of a wildcard are met in some order. *)
Variable searches : gomap search.
Inductive cond_run : sexpr -> res bool -> Prop :=
| cr_id n s o : mget n searches = Some s -> search_run s o -> cond_run (SId n) o
| cr_absent n : mget n searches = None -> cond_run (SId n) (Ok false)
| cr_and l o : all_run cond_run l o -> cond_run (SAnd l) o
| cr_or l o : any_run cond_run l o -> cond_run (SOr l) o
| cr_not e b : cond_run e (Ok b) -> cond_run (SNot e) (Ok (negb b))
| cr_not_crash e : cond_run e Panic -> cond_run (SNot e) Panic
| cr_some l o : Permutation l searches -> any_run (fun ns => search_run (snd ns)) l o -> cond_run SOneOfThem o
| cr_some_pat p l o : Permutation l searches ->
    any_run (fun ns => search_run (snd ns)) (List.filter (fun ns => pmatch p (fst ns)) l) o -> cond_run (SOneOfPattern p) o
| cr_every l o : Permutation l searches -> all_run (fun ns => search_run (snd ns)) l o -> cond_run SAllOfThem o
| cr_every_pat p l o : Permutation l searches ->
    all_run (fun ns => search_run (snd ns)) (List.filter (fun ns => pmatch p (fst ns)) l) o -> cond_run (SAllOfPattern p) o
| cr_other : cond_run SOther (Ok false).
End S.

(** No search uses a modifier or a mapping on which the compiler itself panics. *)
Definition search_compiles (mappings : gomap (list string)) (s : search) : Prop :=
  forall em fm, In em (se_matchers s) -> In fm em ->
  (forall m, In m (fm_mods fm) -> m <> "base64Offset" /\ m <> "cidr") /\ mget (fm_field fm) mappings <> Some [].
(** The operand is a known field followed by an opening bracket and nothing else. *)
Definition cut_off (M : gomap fieldmap) (a : string) : Prop := exists b, ~ In "["%char (list_ascii_of_string b) /\ mget b M <> None /\ a = (b ++ "[")%string.

(** ** Whole policies on flattened records *)
From Verif Require Import EngineModel EngineFlat EvalModel.
(** [pr] is the rule produced for condition [snd x] of Sigma rule [fst x]; its evaluation on a record
    runs the condition on the record's data. *)
Definition prule_of (X : sfgo_fns) (M : gomap fieldmap) mappings pmatch (x : srule * sexpr) (pr : prule sfrec) : Prop :=
  let (r, e) := x in let ru := pr_rule pr in
  r_name ru = sr_id r /\ r_desc ru = sr_desc r /\ r_actions ru = [] /\ r_tags ru = map TagStr (sr_tags r) /\
  level_is (sr_level r) (r_prio ru) /\ r_prefilter ru = [] /\ r_enabled ru = true /\
  (forall rec, cond_run mappings pmatch (fun l t op => flat_test X M l t op (fst rec)) (sr_searches r) e (pr_cond pr rec)) /\
  (forall rec rec', fst rec = fst rec' -> pr_cond pr rec = pr_cond pr rec').
(** What a record leaves a worker with: the process ends if the evaluation of some rule panics;
    otherwise the rules that hold are recorded in it, in order, and it is passed on if there is one
    or the mode is Enrich. *)
Definition holds (pr : prule sfrec) (r : sfrec) : bool := match pr_cond pr r with Ok b => b | _ => false end.
Definition hits (prs : list (prule sfrec)) (r : sfrec) : list (rule sfrec) := map pr_rule (List.filter (fun pr => holds pr r) prs).
Definition annotated (l : list (rule sfrec)) (r : sfrec) : sfrec := fold_left sf_add l r.
