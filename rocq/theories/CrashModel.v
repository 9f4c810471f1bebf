(** * CrashModel: the processor is killed at any moment and started again
    (driver/otel/kafkadriver.go:63-119, driver/otel/config.go:44-75; the pipeline of [OtelPipe]).

    A life is a start of the processor and its run up to the moment it ends, however it ends.  Nothing but the broker survives:
    the input topic, the offset committed for the consumer group, and what was produced.

    The consumer is librdkafka's with its defaults (kafkadriver.go never commits and never seeks; config.go:47-50 sets
    auto.offset.reset to earliest): the offset of a message is stored for commit when the message is handed to the program
    (enable.auto.offset.store), and stored offsets are committed in the background at times of the library's choosing
    (enable.auto.commit); a consumer that starts begins at the committed offset, or at the first message.  With
    enable.auto.commit off, nothing is ever committed: [l_next] is [l_from].

    Simplifications: one partition, one member of the group; the topic keeps all its messages. *)
From Verif Require DriverModel.
From Verif Require Import GoBase Predicates SigmaModel EngineModel PoolModel PoolFacts4 MonitorModel InitModel ExportModel ChainModel OtelPipe.
Local Open Scope nat_scope.

Section K.
Context {R : Type}.
Variable ops : operations R.
Variables (pmatch : string -> string -> bool) (ord : srule -> list nat -> list (string * search)) (fuel : nat).
Variables (applicable : R -> rule R -> bool) (add : R -> rule R -> R) (ah : ahandler R).
Variables (buffer xstart : Z) (cap : nat) (conf : gomap cval).
Variable parse : string -> option (list R).

(** [l_from]: the offset committed at the start; [l_read]: the messages handed to the driver; [l_next]: the offset committed at
    the end; [l_host], [l_ready]: the policy directory at the start and the policy engine after Init. *)
Record life := mkLife { l_from : nat; l_read : nat; l_next : nat; l_host : host; l_ready : ready R;
                        l_trace : list (nat * sact R host); l_end : cstate R (ostate R) }.
Definition messages (topic : list string) (l : life) : list string := firstn (l_read l) (skipn (l_from l) topic).
(** kafkadriver.go:96-119 on these messages *)
Definition sends (ms : list string) : list (DriverModel.act R) := fst (DriverModel.kloop parse (map DriverModel.KMsg ms)).
(** 98: a further message is asked for when the logs of all messages before it have been sent (a message that is not one of logs
    ends the driver: 110-112). *)
Definition asked (ms : list string) (l : life) : Prop :=
  forall ms' m, ms = ms' ++ [m] -> (forall m', In m' ms' -> parse m' <> None) /\
    exists todo, c_st (l_end l) 0 = OSrc todo /\ length todo <= length (sends [m]).
Definition lived (topic : list string) (l : life) : Prop :=
  l_from l + l_read l <= length topic /\
  InitModel.init ops pmatch ord fuel (l_host l) conf = Ok (Some (l_ready l)) /\
  o_run_to ops pmatch ord fuel applicable add ah (l_ready l) buffer xstart cap (sends (messages topic l)) (l_trace l) (l_end l) /\
  asked (messages topic l) l /\
  l_from l <= l_next l <= l_from l + l_read l.
(** One life after the other; the first component is the offset committed. *)
Inductive lives (topic : list string) : nat -> list life -> Prop :=
| lv_none : lives topic 0 []
| lv_more : forall c ls l, lives topic c ls -> l_from l = c -> lived topic l -> lives topic (l_next l) (ls ++ [l]).
End K.
Arguments life : clear implicits.
