(** * SpecRest: a running engine or pipeline at an arbitrary moment, and at rest. *)
From Verif Require Import GoBase PoolModel SpecPool EngineModel InitModel ExportModel AppModel ChainModel SpecChain.

(** No goroutine of the plugin can take a step by itself. *)
Definition idle {P R} (proc : P -> R -> option R) (conc : nat) (outCh : list nat) (s : st P R) : Prop :=
  forall c, goes_on c = true -> fire proc conc outCh s c = None.
(** No goroutine of the pipeline can take a step, but for the ticks of the exporter and the policy
    monitor's file events. *)
Definition still (stage : nat -> dstate -> sact msg host -> dstate -> Prop) (cap : nat) (s : cstate msg dstate) : Prop :=
  forall ia s', working ia -> ~ cstep stage cap s ia s'.
(** What the exporter has received and not yet handed to its encoder. *)
Definition held {R} (x : xstate R) : list R := if x_open x then x_recs x else [].
