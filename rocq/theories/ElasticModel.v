(** * ElasticModel: the exporter with the ECS encoder and the Elasticsearch target (encoders/ecs.go:94-102, transports/elastic.go:81-141). *)
From Coq Require Import Permutation.
From Verif Require Import GoBase Predicates FlatRecord EngineModel EngineFlat EcsModel.

(** ecs.go:95-101: the documents of a batch. *)
Definition ecs_docs (X : sfgo_fns) (E : ecs_fns) (version ecsversion : string) (b : list sfrec) : list ecsdoc :=
  flat_map (fun r => match encode_ecs X E version ecsversion (fst r) (snd r) with Ok d => [d] | _ => [] end) b.
(** elastic.go:82-135: every batch has a bulk indexer of its own, which is closed before the next batch; its workers
    (ESNumWorkers) send the documents in any order.  [lost]: the documents that do not arrive, for whatever reason
    (a request fails or is refused, bi.Add or bi.Close reports an error); errors are only logged. *)
Inductive es_batches : gomap ecsdoc -> list (list ecsdoc) -> list ecsdoc -> gomap ecsdoc -> Prop :=
| es_done ix : es_batches ix [] [] ix
| es_batch ix b arrived lost bs lost' ix' : Permutation b (arrived ++ lost) -> es_batches (es_export ix arrived) bs lost' ix' ->
    es_batches ix (b :: bs) (lost ++ lost') ix'.
