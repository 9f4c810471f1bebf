(** * OtelPipe: the shipped OpenTelemetry pipeline with the goroutines of its stages
    (resources/pipelines/pipeline.otel.json; driver/pipeline/pipeline.go:119-204, 286-294;
    driver/otel/kafkadriver.go:86-120; the plugins' own models).

    Three stages: the driver takes the actions of DriverModel, the policy engine the steps of its main
    goroutine, its workers and its policy monitor (PoolModel, MonitorModel, InitModel) on logs
    (OtelEngine), the exporter those of its select statement (ExportModel).

    Simplifications: as in ChainModel.  Logs pass by pointer; a log is in one place at a time, so it is
    a value here.  A test that panics yields false (OtelEngine): the model describes runs up to the
    first such panic.  [R] stands for the logs; nothing here looks into them. *)
From Verif Require DriverModel.
From Verif Require Import GoBase Predicates SigmaModel EngineModel PoolModel PoolFacts4 MonitorModel InitModel ExportModel ChainModel.
Local Open Scope nat_scope.

Inductive ostate (R : Type) :=
| OSrc (l : list (DriverModel.act R))                (* the driver, with the actions still to come *)
| OEng (s : lstate (R := R))
| OExp (x : xstate R).
Arguments OSrc {R}. Arguments OEng {R}. Arguments OExp {R}.

Section O.
Context {R : Type}.
Variable ops : operations R.
Variables (pmatch : string -> string -> bool) (ord : srule -> list nat -> list (string * search)) (fuel : nat).
Variables (applicable : R -> rule R -> bool) (add : R -> rule R -> R) (ah : ahandler R).
Variable rd0 : ready R.                              (* the policy engine after Init *)
Variables (buffer xstart : Z).
Notation act := (sact R host).

(** kafkadriver.go:111-114 (filedriver.go likewise); in [AWait] it waits for the stages. *)
Inductive osrc_step : list (DriverModel.act R) -> act -> list (DriverModel.act R) -> Prop :=
| os_send : forall r l, osrc_step (DriverModel.ASend r :: l) (TOut r) l
| os_close : forall l, osrc_step (DriverModel.AClose :: l) TClose l.
(** A step of the engine as the pipeline sees it; its output channel is channel 2. *)
Definition oeng_act (ch : lchoice R) (ls : list (label (policies R) R)) : act :=
  match ch, ls with
  | LFiles _ _ _ h, _ => TStep (Some h)
  | LCh (CInput i), _ => TIn i
  | _, [LEmit 2 r] => TOut r
  | _, [LCloseOut 2] => TClose
  | _, [LPanic] => TPanic
  | _, _ => TStep None
  end.
Definition oeng_step := live_step ops pmatch ord fuel (engine_proc applicable add ah (c_mode (rd_conf rd0)))
  (Z.to_nat (c_concurrency (rd_conf rd0))) [2] (rd_conf rd0).
(** exporter.go:113-160 with any times and ticks *)
Inductive oexp_act : xstate R -> act -> xstate R -> Prop :=
| ox_rec : forall x r now done, x_open x = true -> oexp_act x (TIn (Some r)) (x_step buffer x (XRec r now done))
| ox_tick : forall x now done, x_open x = true -> oexp_act x (TStep None) (x_step buffer x (XTick now done))
| ox_close : forall x, x_open x = true -> oexp_act x (TIn None) (x_step buffer x XClose).
Inductive o_stage : nat -> ostate R -> act -> ostate R -> Prop :=
| og_src : forall l a l', osrc_step l a l' -> o_stage 0 (OSrc l) a (OSrc l')
| og_eng : forall s ch s' ls, oeng_step s ch = Some (s', ls) -> o_stage 1 (OEng s) (oeng_act ch ls) (OEng s')
| og_exp : forall x a x', oexp_act x a x' -> o_stage 2 (OExp x) a (OExp x').
(** Start of the pipeline: the driver with its actions, the plugins after Init. *)
Definition o_start (acts : list (DriverModel.act R)) (i : nat) : ostate R :=
  match i with 0 => OSrc acts | 1 => OEng (live_start rd0) | _ => OExp (x_start xstart) end.
Definition o_run_to (cap : nat) (acts : list (DriverModel.act R)) : list (nat * act) -> cstate R (ostate R) -> Prop :=
  crun o_stage cap (cinit (o_start acts)).
End O.
