(** * HealthModel: driver/pipeline/pipeline.go:296-328, core/exporter/exporter.go:104-110, core/exporter/transports/protocol.go:34-37. *)
From Verif Require Import GoBase ExportModel.
From Verif Require StartModel.
Open Scope Z_scope.

(** What calling Test of a stage does: it returns without or with an error after some time, or never.  Times are in nanoseconds. *)
Inductive outcome := Passes (t : Z) | Fails (t : Z) | Hangs.
(** exporter.go:105-110: a transport without Test passes at once. *)
Definition exporter_test (transport_test : option outcome) : outcome := match transport_test with Some o => o | None => Passes 0 end.
(** The files in transports: none of the transports has the method Test. *)
Definition builtin_transport_test (t : transport) (reachable : bool) : option outcome := None.
(** SFTestableProcessor: of the built-in processors, the exporter.  [None]: the stage has no Test. *)
Definition builtin_test (k : StartModel.pkind) (t : transport) (reachable : bool) : option outcome :=
  match k with StartModel.KExporter => Some (exporter_test (builtin_transport_test t reachable)) | _ => None end.

(** pipeline.go:303-312: when the goroutine sends to c, and what; None: never. *)
Fixpoint checks (now : Z) (stages : list (option outcome)) : option (Z * bool) :=
  match stages with
  | [] => Some (now, true)
  | None :: l => checks now l
  | Some (Passes t) :: l => checks (now + t) l
  | Some (Fails t) :: _ => Some (now + t, false)
  | Some Hangs :: _ => None
  end.
Definition HealthChecksTimeout : Z := 10000000000.      (* config.go:57 *)
(** pipeline.go:314-327: the select.  [says stages b]: "Health checks: passed" ([b]) or "failed" may be logged; with both channels ready either case may be taken. *)
Inductive says (stages : list (option outcome)) : bool -> Prop :=
| sy_result t b : checks 0 stages = Some (t, b) -> t <= HealthChecksTimeout -> says stages b
| sy_timeout : (forall t b, checks 0 stages = Some (t, b) -> HealthChecksTimeout <= t) -> says stages false.
