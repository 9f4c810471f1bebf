(** * OtelEngine: the policy engine instantiated at OpenTelemetry logs
    (source/otel/{operations,contextualizer,prefilter}.go, source/common/types_otel.go,
    policyengine_otel.go).

    Simplification: a test that panics ends the process in Go; here it yields false.  The theorems
    that need it assume logs on which no test panics, and C94 says when that is so.  EvalOtel (C121)
    evaluates policies with the panics. *)
From Verif Require Import GoBase Predicates EngineModel OtelModel.

Section O.
Variable D : Type.
Variable parse_float : string -> option D.
Variables deq dlt dle : D -> D -> bool.
Variable regcomp : string -> option (string -> string).   (* regexp.Compile and FindString *)
(** The order in which the map of tags is walked (contextualizer.go:65), which may depend on the
    log and the rule. *)
Variable enum : logs D -> rule (logs D) -> list string -> list string.

(** A predicate as the engine uses it. *)
Definition o_crit (f : logs D -> res bool) : criterion (logs D) := fun r => match f r with Ok b => b | _ => false end.
(** operations.go:51-155 *)
Definition o_ops : operations (logs D) :=
  mkOps (fun a => Ok (o_crit (o_exists D a), false))
    (fun l r op => Ok (o_crit (o_compare D parse_float deq dlt dle l r op), false))
    (fun a l op => Ok (o_crit (o_foldany D parse_float deq dlt dle a l op), false))
    (fun a l op => Ok (o_crit (o_foldall D parse_float deq dlt dle a l op), false))
    (fun a re => match regcomp re with
                 | Some find => Ok (o_crit (o_regexp D find a), false)
                 | None => Ok (c_false, true)
                 end).
(** prefilter.go:30-32 *)
Definition o_applicable (r : logs D) (ru : rule (logs D)) : bool := true.
(** interpreter.go:171, contextualizer.go:34-72 *)
Definition o_add (r : logs D) (ru : rule (logs D)) : logs D :=
  match o_addrules D (enum r ru) [(r_name ru, r_tags ru)] r with Ok r' => r' | _ => r end.
(** One worker iteration on a log. *)
Definition o_work (ah : ahandler (logs D)) m filters rules (r : logs D) : logs D * list (effect (logs D)) :=
  work o_applicable o_add ah m filters rules r.
End O.
