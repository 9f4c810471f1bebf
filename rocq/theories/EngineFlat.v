(** * EngineFlat: the policy engine instantiated at flattened records
    (source/flatrecord/{record,contextualizer,prefilter}.go, source/common/types_flatrecord.go). *)
From Verif Require Import GoBase Predicates FlatRecord EngineModel FalcoModel.

(** What a matched rule leaves in a record's context (policy/types.go:44-54; the condition is
    not readable once stored and is left out to keep the type of records non-recursive). *)
Record rmeta := mkMeta { m_name : string; m_desc : string; m_actions : list string; m_tags : list tag; m_prio : priority }.
Definition meta {R} (ru : rule R) : rmeta := mkMeta (r_name ru) (r_desc ru) (r_actions ru) (r_tags ru) (r_prio ru).
(** record.go:38-45 *)
Definition sfrec := (flatrec * context rmeta)%type.
(** contextualizer.go:69-71 *)
Definition sf_add (r : sfrec) (ru : rule sfrec) : sfrec := (fst r, ctx_addrules [meta ru] (snd r)).
(** operations.go: criteria read only the data of the record. *)
Definition sf_lift (x : res (criterion flatrec * bool)) : res (criterion sfrec * bool) :=
  let* (c, e) := x in Ok (fun r => c (fst r), e).
Definition sf_ops (X : sfgo_fns) (M : gomap fieldmap) : operations sfrec :=
  let ops := flat_ops X M in
  mkOps (fun a => sf_lift (op_exists ops a)) (fun l r op => sf_lift (op_compare ops l r op))
    (fun a l op => sf_lift (op_foldany ops a l op)) (fun a l op => sf_lift (op_foldall ops a l op))
    (fun a re => sf_lift (op_regexp ops a re)).
(** prefilter.go:35-46; a panic of the mapper is read as not applicable. *)
Definition sf_applicable (X : sfgo_fns) (M : gomap fieldmap) (r : sfrec) (ru : rule sfrec) : bool :=
  match fr_applicable X M (r_prefilter ru) (fst r) with Ok b => b | _ => false end.
(** One worker iteration on a flattened record. *)
Definition sf_work X M (ah : ahandler sfrec) m filters rules (r : sfrec) : sfrec * list (effect sfrec) :=
  work (sf_applicable X M) sf_add ah m filters rules r.
