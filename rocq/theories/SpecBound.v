(** * SpecBound: how many records, and goroutines, a running pipeline holds. *)
From Verif Require ReaderModel DriverModel OtelPipe.
From Verif Require Import GoBase EngineModel EngineFlat PoolModel InitModel ExportModel AppModel ChainModel SpecRest.
Local Open Scope nat_scope.

(** Records in the hands of the goroutines of a stage. *)
Definition reader_holds (pc : rpc) : nat := match pc with RGot _ => 1 | RSend l => length l | _ => 0 end.
Definition worker_holds {R} (w : @wst R) : nat := match w with WEval _ | WOut _ _ => 1 | _ => 0 end.
Definition main_holds {P R} (m : mpc P R) : nat :=
  match m with MHave _ | MStop _ _ | MWait _ _ | MSend _ | MBypass _ _ => 1 | _ => 0 end.
Definition pool_holds {P R} (pl : pool P R) : nat := length (pl_buf pl) + list_sum (map worker_holds (pl_ws pl)).
Definition engine_holds {P R} (s : st P R) : nat := main_holds (s_main s) + list_sum (map pool_holds (s_pools s)).
(** Worker goroutines that have not returned, of all interpreters installed since the start. *)
Definition workers {P R} (s : st P R) : nat :=
  list_sum (map (fun pl => list_sum (map (fun w => match w with WGone => 0 | _ => 1 end) (pl_ws pl))) (s_pools s)).
Definition stage_holds (d : dstate) : nat :=
  match d with
  | DDrv _ => 0                         (* what has not been read yet *)
  | DRead pc _ _ => reader_holds pc
  | DEng e => engine_holds (fst e)
  | DExp x => length (held x)
  end.
(** Everything between the source and the exporter's target. *)
Definition in_flight (s : cstate msg dstate) : nat :=
  length (c_ch s 1) + stage_holds (c_st s 1) + length (c_ch s 2) + stage_holds (c_st s 2) + length (c_ch s 3) + stage_holds (c_st s 3).
(** Different processes the reader's tables know. *)
Definition knows (t : ReaderModel.tables) (ids : list ReaderModel.oid) : Prop :=
  NoDup ids /\ forall i, In i ids -> ReaderModel.get_proc i t <> None.

(** The same for the OpenTelemetry pipeline. *)
Definition o_stage_holds {R} (d : OtelPipe.ostate R) : nat :=
  match d with OtelPipe.OSrc _ => 0 | OtelPipe.OEng e => engine_holds (fst e) | OtelPipe.OExp x => length (held x) end.
Definition o_in_flight {R} (s : cstate R (OtelPipe.ostate R)) : nat :=
  length (c_ch s 1) + o_stage_holds (c_st s 1) + length (c_ch s 2) + o_stage_holds (c_st s 2).
