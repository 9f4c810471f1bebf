(** * SpecOtelEdit: edits of a policy, and what an OpenTelemetry log is told. *)
From Coq Require Import Permutation.
From Verif Require Import GoBase Predicates FalcoModel SpecFalco SigmaModel EngineModel SpecEngine OtelModel SpecOtel OtelEngine SpecOtelEngine
  PoolModel SpecPool PoolFacts4 MonitorModel SpecMonitor SpecLexer InitModel SpecInit.

Section S.
Variable F : Type.
Variable parse_float : string -> option F.
Variables deq dlt dle : F -> F -> bool.
Variable regcomp : string -> option (string -> string).
Variable enum : logs F -> rule (logs F) -> list string -> list string.
Notation logs := (logs F).

(** What the output for the log [r] tells: nothing ([None]: the log does not leave), or the names of
    the rules noted in one new scope at its end, everything else being as it came. *)
Definition o_verdict : Type := option (list string).
Inductive o_tells (r : logs) : list logs -> o_verdict -> Prop :=
| ot_away : o_tells r [] None
| ot_as_it_came : o_tells r [r] (Some [])
| ot_names ns ts : ns <> [] -> o_tells r [mkLogs F (l_resource F r) (l_scopes F r ++ [own F ns ts])] (Some ns).
(** A log no engine has annotated. *)
Definition unseen (r : logs) : Prop := Forall (foreign F) (l_scopes F r).

(** [E] holds, for every such log, of what it is told under the policy files of [h] and what it is
    told under those of [h']: log by log through the engine's work ... *)
Section Compare.
Variable pmatch : string -> string -> bool.
Variable ord : srule -> list nat -> list (string * search).
Variable n : nat.
Notation ops := (o_ops F parse_float deq dlt dle regcomp).
Notation proc ah m := (engine_proc (o_applicable F) (o_add F enum) ah m).
Definition o_compared (h h' : host) (conf : gomap cval) (ah : ahandler logs) (E : mode -> logs -> o_verdict -> o_verdict -> Prop) : Prop :=
  forall p p' m,
  create_interpreter ops pmatch ord n h (fst (create_config conf)) = Ok (Some p) ->
  create_interpreter ops pmatch ord n h' (fst (create_config conf)) = Ok (Some p') ->
  forall r, unseen r -> exists v v',
    o_tells r (outs (snd (o_work F enum ah m (fst p) (snd p) r))) v /\ o_tells r (outs (snd (o_work F enum ah m (fst p') (snd p') r))) v' /\ E m r v v'.
(** ... and for whole runs of the plugin over the same logs. *)
Definition o_compared_runs (h h' : host) (conf : gomap cval) (ah : ahandler logs) (E : mode -> logs -> o_verdict -> o_verdict -> Prop) : Prop :=
  forall m outCh rd rd' cs cs' s s' tr tr',
  monitor_is conf NoneType -> mode_is conf m -> NoDup outCh ->
  init ops pmatch ord n h conf = Ok (Some rd) ->
  init ops pmatch ord n h' conf = Ok (Some rd') ->
  run (proc ah m) (Z.to_nat (c_concurrency (rd_conf rd))) outCh (pool_start rd) cs = (s, tr) -> finished s ->
  run (proc ah m) (Z.to_nat (c_concurrency (rd_conf rd'))) outCh (pool_start rd') cs' = (s', tr') -> finished s' ->
  taken tr = taken tr' -> Forall unseen (taken tr) ->
  forall c, In c outCh -> exists l,
    map (fun x => fst x) l = taken tr /\
    Permutation (emitted c tr) (concat (map (fun x => fst (snd x)) l)) /\
    Permutation (emitted c tr') (concat (map (fun x => snd (snd x)) l)) /\
    forall r o o', In (r, (o, o')) l -> exists v v', o_tells r o v /\ o_tells r o' v' /\ E m r v v'.
End Compare.

(** ** The effects of edits *)
Notation rule_fires := (o_rule_fires F parse_float deq dlt dle).
Notation filter_fires := (o_filter_fires F parse_float deq dlt dle).
Definition o_no_effect (m : mode) (r : logs) (v v' : o_verdict) : Prop := v' = v.
Definition o_filtered (P : list (list decl)) (r : logs) : Prop := exists od, In od (filter_occs (declared P)) /\ filter_fires od r.
(** A new rule: a log a filter takes stays away.  Any other that the rule does not fire on notices
    nothing, and one it fires on is told of the rule, at the rule's place among those it was told of before. *)
Definition o_rule_added (P : list (list decl)) (o : occurrence) (d : ruledecl) (m : mode) (r : logs) (v v' : o_verdict) : Prop :=
  (o_filtered P r /\ v = None /\ v' = None) \/
  (~ o_filtered P r /\ ~ rule_fires (o, d) r /\ v' = v) \/
  (~ o_filtered P r /\ rule_fires (o, d) r /\
     exists a b, v' = Some (a ++ rd_name d :: b) /\ (v = Some (a ++ b) \/ m = AlertMode /\ a = [] /\ b = [] /\ v = None)).
(** A new filter takes exactly the logs it fires on, besides those taken before. *)
Definition o_filter_added (P : list (list decl)) (o : occurrence) (d : filterdecl) (m : mode) (r : logs) (v v' : o_verdict) : Prop :=
  (o_filtered P r /\ v = None /\ v' = None) \/
  (~ o_filtered P r /\ ~ filter_fires (o, d) r /\ v' = v) \/
  (~ o_filtered P r /\ filter_fires (o, d) r /\ v' = None).
(** Rules that change places: a log both fire on, and that no filter takes, is told of them in the
    other order; every other log notices nothing. *)
Definition o_exchanged (P : list (list decl)) (ox : occurrence) (dx : ruledecl) (oy : occurrence) (dy : ruledecl) (m : mode) (r : logs) (v v' : o_verdict) : Prop :=
  let both := rule_fires (ox, dx) r /\ rule_fires (oy, dy) r in
  (o_filtered P r /\ v = None /\ v' = None) \/
  (~ o_filtered P r /\ ~ both /\ v' = v) \/
  (~ o_filtered P r /\ both /\ exists a b, v = Some (a ++ rd_name dx :: rd_name dy :: b) /\ v' = Some (a ++ rd_name dy :: rd_name dx :: b)).
End S.
