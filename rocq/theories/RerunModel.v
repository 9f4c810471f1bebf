(** * RerunModel: working through trace files is started, killed at any moment, and started again
    (driver/pipeline/pipeline.go:119-204; the pipeline of [ChainModel]; transports/file.go:41-73, transports/elastic.go:81-141).

    Nothing is kept of a life but what was exported: the file driver does not note how far it came (filedriver.go:53-116), the
    index and the output file are outside.  A kill in the middle of an export: for the index, documents of the batch are lost;
    for the file, the text ends anywhere. *)
From Verif Require ReaderModel DriverModel.
From Verif Require Import GoBase Predicates FlatRecord SigmaModel EngineModel EngineFlat PoolModel MonitorModel InitModel FlattenModel EcsModel ElasticModel
  ExportModel AppModel ChainModel SpecChain.
Local Open Scope nat_scope.

Section R.
Variables (P : payloads) (ipstr : Z -> string) (jsonsvcs : list service -> string) (hash : flatrec -> Z).
Variables (X : sfgo_fns) (Mp : gomap fieldmap) (pmatch : string -> string -> bool) (ord : srule -> list nat -> list (string * search)) (fuel : nat).
Variable ah : ahandler sfrec.
Variable rd : ready sfrec.                            (* the policy engine after Init: the same configuration and policy files in every life *)
Variable fconf : gomap string.                        (* the reader's configuration *)

(** A life on the records [rs] (all of the files, or as far as they had been written): the pipeline in any state it can reach.  The
    clock, the buffer sizes and the start time are those of the life. *)
Record attempt := mkAttempt { a_clk : nat -> Z; a_buffer : Z; a_start : Z; a_cap : nat; a_acts : list (DriverModel.act ReaderModel.rec);
                              a_trace : list (nat * sact msg host); a_end : cstate msg dstate; a_exp : xstate sfrec }.
Definition attempted (rs : list ReaderModel.rec) (a : attempt) : Prop :=
  source_of rs (a_acts a) /\
  app_run_to P (a_clk a) ipstr jsonsvcs hash X Mp pmatch ord fuel ah rd (a_buffer a) (a_start a) (a_cap a) fconf (a_acts a) (a_trace a) (a_end a) /\
  c_st (a_end a) 3 = DExp (a_exp a).

(** Lives one after the other and the index they export to, from [ix]; each reads a first part of [rs]. *)
Variables (E : ecs_fns) (version ecsversion : string).
Inductive indexed (rs : list ReaderModel.rec) (ix : gomap ecsdoc) : gomap ecsdoc -> Prop :=
| ix_none : indexed rs ix ix
| ix_more : forall ix1 a some more lost ix2, indexed rs ix ix1 -> rs = some ++ more -> attempted some a ->
    es_batches ix1 (map (ecs_docs X E version ecsversion) (x_batches (a_exp a))) lost ix2 -> indexed rs ix ix2.

(** Lives one after the other and the file they write to: Init removes it (file.go:42-47); the text of the batches is written,
    up to some byte. *)
Variable enc : sfrec -> option edata.
Definition file_text (a : attempt) : string := file_after "" (process_all (encode_all enc) (file_export (fun _ => WOk) (fun _ => WOk)) 0 (x_batches (a_exp a))).
Inductive filed : list attempt -> string -> string -> Prop :=
| fd_none : forall t, filed [] t t
| fd_more : forall as_ t t1 rs a k, filed as_ t t1 -> attempted rs a -> filed (as_ ++ [a]) t (file_init true t1 ++ stake k (file_text a)).
End R.
