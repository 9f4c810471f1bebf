(** * SpecOtelPipe: vocabulary for runs of the OpenTelemetry pipeline. *)
From Verif Require DriverModel PluginModel.
From Verif Require Import GoBase InitModel ExportModel ChainModel OtelPipe.
Local Open Scope nat_scope.

Section S.
Context {R : Type}.
(** A driver that sends [rs] and is still waiting, or has closed the channel and returned, or has
    closed it and waits for the pipeline. *)
Definition o_source (rs : list R) (acts : list (DriverModel.act R)) : Prop :=
  exists tl, acts = map DriverModel.ASend rs ++ tl /\ (tl = [] \/ tl = [DriverModel.AClose] \/ tl = [DriverModel.AClose; DriverModel.AWait]).
(** The batches of file events the policy monitor handled, each as what it showed to the compiler. *)
Definition o_shown (tr : list (nat * sact R host)) : list host :=
  flat_map (fun ia => match snd ia with TStep (Some h) => [h] | _ => [] end) tr.
(** A step that is neither a tick of the exporter nor a batch of file events. *)
Definition o_working (ia : nat * sact R host) : Prop := ia <> (2, TStep None) /\ forall h, snd ia <> TStep (Some h).
(** No goroutine of the pipeline can take such a step. *)
Definition o_still (stage : nat -> ostate R -> sact R host -> ostate R -> Prop) (cap : nat) (s : cstate R (ostate R)) : Prop :=
  forall ia s', o_working ia -> ~ cstep stage cap s ia s'.
End S.
(** What the Kafka driver hears: the logs of all messages, in order, up to the first failed read or
    the first message that is not one of logs; requests to stop make no difference. *)
Inductive heard {R} (parse : string -> option (list R)) : list DriverModel.kev -> list R -> Prop :=
| h_end : heard parse [] []
| h_msg : forall m a es rs, parse m = Some a -> heard parse es rs -> heard parse (DriverModel.KMsg m :: es) (a ++ rs)
| h_stop : forall es rs, heard parse es rs -> heard parse (DriverModel.KStop :: es) rs
| h_fail : forall es, heard parse (DriverModel.KReadErr :: es) []
| h_bad : forall m es, parse m = None -> heard parse (DriverModel.KMsg m :: es) [].
