(** * Props_JsonFlat: C64 and C65 for the records the flattener makes of an event ([e]) and the entities it was joined
    with ([x]). *)
From Verif Require GoBase FlatRecord JsonModel SpecJson JsonFlat Samples.
From Verif Require Import GoBase Predicates FlatRecord FieldTables EngineModel FlattenModel SpecFlatten.

(** ** C64: the exported text is JSON exactly when ... *)
Theorem C64_events (R : Type) X ipstr jsonsvcs x e two_addresses version vj (ctx : context (rule R)) s :
  (forall z t, Forall SpecJson.plain_name (x_opflags X z t)) -> (forall z, Forall SpecJson.plain_name (x_openflags X z)) ->
  (forall z, trim_bounding_quotes (x_rectype X z) = "NF" <-> z = 5%Z) -> (forall z, trim_bounding_quotes (x_rectype X z) = "KE" <-> z = 11%Z) ->
  SpecJson.jtext version vj -> JsonModel.encode_json X two_addresses version (flatten ipstr jsonsvcs x e) ctx = Ok s ->
  ((exists v, SpecJson.jtext s v) <->
   match e with
   | EvK8s _ => True
   | _ => x_ptree x <> None /\
          match x_pod x with
          | Some p => trim_bounding_quotes (fp_id p) = "" \/
                      (length (fp_hostip p) <= 1 /\ length (fp_internalip p) <= 1 /\ length (fp_services p) <= 1 /\
                       forall v, In v (fp_services p) -> length (s_clusterip v) <= 1)
          | None => True
          end
   end).
Proof. exact (fun A B N K V E => JsonFlat.flat_json X ipstr jsonsvcs x e two_addresses version ctx vj s V E A B N K). Qed.
Print Assumptions C64_events.
(** A pod with two services: written, not JSON. *)
Definition svc1 := mkService "web" "s1" "ns" [] [16777343%Z].
Definition pod2 (l : list service) : fctx :=
  mkFCtx None (Some (mkFPod 1 "pod1" "web" "node" "ns" 0 [16777343%Z] [] l)) None (Some Samples.proc0) (Some [Samples.proc0]) None None.
Example C64_events_case : exists s, JsonModel.encode_json Samples.X0 true "4" (flatten (fun _ => "") (fun _ => "") (pod2 [svc1; svc1]) (EvPE (mkPE 1 1 1 0))) (ctx_new : context (rule unit)) = Ok s /\
  1 < length (fp_services (match x_pod (pod2 [svc1; svc1]) with Some p => p | None => mkFPod 0 "" "" "" "" 0 [] [] [] end)).
Proof. eexists. split; [vm_compute; reflexivity|]. cbn; repeat constructor. Qed.

(** ** C65: every event's record is encoded. *)
Theorem C65_events (R : Type) X ipstr jsonsvcs x e two_addresses version (ctx : context (rule R)) :
  exists s, JsonModel.encode_json X two_addresses version (flatten ipstr jsonsvcs x e) ctx = Ok s.
Proof. exact (JsonFlat.flat_encodes X ipstr jsonsvcs x e two_addresses version ctx). Qed.
Print Assumptions C65_events.
