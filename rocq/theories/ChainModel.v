(** * ChainModel: the shipped pipeline with the goroutines of its stages
    (driver/pipeline/pipeline.go:119-204, 286-294; the stages' own models).

    Where AppModel abstracts a stage to a function on records, here every stage takes the atomic
    steps of its own model: the data source the actions of DriverModel, the reader record by record
    (ReaderModel, FlattenModel), the policy engine the steps of its main goroutine, of its workers
    and of its policy monitor (PoolModel, MonitorModel, InitModel), the exporter those of its select
    statement (ExportModel).

    Simplifications: a channel holds up to [cap] messages, [cap] > 0 where progress is claimed; one
    output channel per stage, as in the shipped pipelines; the flat records of one input record are
    sent after it has been handled completely. *)
From Verif Require ReaderModel DriverModel.
From Verif Require Import GoBase Predicates FlatRecord SigmaModel EngineModel EngineFlat PoolModel PoolFacts4 MonitorModel InitModel FlattenModel ExportModel AppModel.
Local Open Scope nat_scope.

(** ** A row of stages joined by channels: channel i is read by stage i and written by stage i-1 *)
Section Chain.
Context {M N S : Type}.                              (* messages, what comes from outside, states *)
Inductive sact :=
| TIn (i : option M)                                 (* a receive; [None]: the channel is closed and empty *)
| TOut (m : M)                                       (* a send *)
| TClose                                             (* closing the output channel *)
| TStep (n : option N)                               (* anything else; [Some]: something from outside was looked at *)
| TPanic.
Variable stage : nat -> S -> sact -> S -> Prop.
Variable cap : nat.

Record cstate := mkC { c_st : nat -> S; c_ch : nat -> list M; c_closed : nat -> bool; c_crash : bool }.
Definition set {A} (f : nat -> A) (i : nat) (a : A) (j : nat) : A := if Nat.eqb i j then a else f j.
Definition cinit (x0 : nat -> S) : cstate := mkC x0 (fun _ => []) (fun _ => false) false.

(** Go's rules for channels: a send on a closed channel, and closing one, is a panic. *)
Inductive cstep (s : cstate) : nat * sact -> cstate -> Prop :=
| cs_in : forall i m q x, c_crash s = false -> stage i (c_st s i) (TIn (Some m)) x -> c_ch s i = m :: q ->
    cstep s (i, TIn (Some m)) (mkC (set (c_st s) i x) (set (c_ch s) i q) (c_closed s) false)
| cs_eof : forall i x, c_crash s = false -> stage i (c_st s i) (TIn None) x -> c_ch s i = [] -> c_closed s i = true ->
    cstep s (i, TIn None) (mkC (set (c_st s) i x) (c_ch s) (c_closed s) false)
| cs_out : forall i m x, c_crash s = false -> stage i (c_st s i) (TOut m) x -> c_closed s (i + 1) = false -> length (c_ch s (i + 1)) < cap ->
    cstep s (i, TOut m) (mkC (set (c_st s) i x) (set (c_ch s) (i + 1) (c_ch s (i + 1) ++ [m])) (c_closed s) false)
| cs_close : forall i x, c_crash s = false -> stage i (c_st s i) TClose x -> c_closed s (i + 1) = false ->
    cstep s (i, TClose) (mkC (set (c_st s) i x) (c_ch s) (set (c_closed s) (i + 1) true) false)
| cs_step : forall i n x, c_crash s = false -> stage i (c_st s i) (TStep n) x ->
    cstep s (i, TStep n) (mkC (set (c_st s) i x) (c_ch s) (c_closed s) false)
| cs_crash : forall i a x, c_crash s = false -> stage i (c_st s i) a x ->
    a = TPanic \/ (c_closed s (i + 1) = true /\ (a = TClose \/ exists m, a = TOut m)) ->
    cstep s (i, a) (mkC (c_st s) (c_ch s) (c_closed s) true).
Inductive crun (s0 : cstate) : list (nat * sact) -> cstate -> Prop :=
| cr_nil : crun s0 [] s0
| cr_snoc : forall tr s ia s', crun s0 tr s -> cstep s ia s' -> crun s0 (tr ++ [ia]) s'.
End Chain.
Arguments sact : clear implicits.
Arguments cstate : clear implicits.

(** ** The stages of the shipped pipeline *)
(** reader.go:80-166: where the reader's goroutine is. *)
Inductive rpc :=
| RIdle                            (* 91: receiving *)
| RGot (r : ReaderModel.rec)       (* has a record *)
| RSend (l : list flatrec)         (* its handler still has to send these *)
| RClose                           (* saw the closed channel; Cleanup closes the output (reader.go:169-172, flattener.go:99-106) *)
| REnd.
Inductive dstate :=
| DDrv (l : list (DriverModel.act ReaderModel.rec))                              (* the source, with the actions still to come *)
| DRead (pc : rpc) (rd : ReaderModel.reader) (f : option (Z * fstate))
| DEng (s : lstate (R := sfrec))
| DExp (x : xstate sfrec).

Section App.
Variable P : payloads.
Variables (clk : nat -> Z) (ipstr : Z -> string) (jsonsvcs : list service -> string) (hash : flatrec -> Z).
Variables (X : sfgo_fns) (Mp : gomap fieldmap) (pmatch : string -> string -> bool) (ord : srule -> list nat -> list (string * search)) (fuel : nat).
Variable ah : ahandler sfrec.
Variable rd0 : ready sfrec.                          (* the policy engine after Init *)
Variables (buffer xstart : Z).
Notation act := (sact msg host).

(** What the main goroutine of the driver does with its actions (DriverModel).  In [AWait] it waits
    for the stages. *)
Inductive drv_step : list (DriverModel.act ReaderModel.rec) -> act -> list (DriverModel.act ReaderModel.rec) -> Prop :=
| ds_send : forall r l, drv_step (DriverModel.ASend r :: l) (TOut (MRec r)) l
| ds_close : forall l, drv_step (DriverModel.AClose :: l) TClose l.
(** reader.go:80-172, with the flattener as handler (flattener.go:61-249) *)
Inductive read_act : rpc * ReaderModel.reader * option (Z * fstate) -> act -> rpc * ReaderModel.reader * option (Z * fstate) -> Prop :=
| ra_take : forall r rd f, read_act (RIdle, rd, f) (TIn (Some (MRec r))) (RGot r, rd, f)
| ra_eof : forall rd f, read_act (RIdle, rd, f) (TIn None) (RClose, rd, f)
| ra_handle : forall r rd f rd' ds s, ReaderModel.reader_step false rd r = Ok (rd', ds) ->
    s = handle_all clk ipstr jsonsvcs hash (mkFlt f [[]]) (events P ds) ->
    read_act (RGot r, rd, f) (TStep None) (RSend (concat (fl_out s)), rd', fl_filter s)
| ra_panic : forall r rd f, (forall x, ReaderModel.reader_step false rd r <> Ok x) -> read_act (RGot r, rd, f) TPanic (RGot r, rd, f)
| ra_send : forall fr l rd f, read_act (RSend (fr :: l), rd, f) (TOut (MFlat fr)) (RSend l, rd, f)
| ra_done : forall rd f, read_act (RSend [], rd, f) (TStep None) (RIdle, rd, f)
| ra_close : forall rd f, read_act (RClose, rd, f) TClose (REnd, rd, f).
(** A step of the engine as the pipeline sees it.  Its output channel is channel 2 of AppModel. *)
Definition eng_act (ch : lchoice sfrec) (ls : list (label (policies sfrec) sfrec)) : act :=
  match ch, ls with
  | LFiles _ _ _ h, _ => TStep (Some h)
  | LCh (CInput (Some r)), _ => TIn (Some (MFlat (fst r)))
  | LCh (CInput None), _ => TIn None
  | _, [LEmit 2 r] => TOut (MOut r)
  | _, [LCloseOut 2] => TClose
  | _, [LPanic] => TPanic
  | _, _ => TStep None
  end.
Definition eng_step := live_step (sf_ops X Mp) pmatch ord fuel (engine_proc (sf_applicable X Mp) sf_add ah (c_mode (rd_conf rd0)))
  (Z.to_nat (c_concurrency (rd_conf rd0))) [2] (rd_conf rd0).
(** A record taken in is wrapped with an empty context (policyengine.go:135, common.NewRecord). *)
Definition fresh (ch : lchoice sfrec) : Prop := forall r, ch = LCh (CInput (Some r)) -> snd r = ctx_new.
(** exporter.go:113-160 with any times and ticks *)
Inductive exp_act : xstate sfrec -> act -> xstate sfrec -> Prop :=
| xa_rec : forall x r now done, x_open x = true -> exp_act x (TIn (Some (MOut r))) (x_step buffer x (XRec r now done))
| xa_tick : forall x now done, x_open x = true -> exp_act x (TStep None) (x_step buffer x (XTick now done))
| xa_close : forall x, x_open x = true -> exp_act x (TIn None) (x_step buffer x XClose).

Inductive app_stage : nat -> dstate -> act -> dstate -> Prop :=
| as_drv : forall l a l', drv_step l a l' -> app_stage 0 (DDrv l) a (DDrv l')
| as_read : forall pc rd f a pc' rd' f', read_act (pc, rd, f) a (pc', rd', f') -> app_stage 1 (DRead pc rd f) a (DRead pc' rd' f')
| as_eng : forall s ch s' ls, eng_step s ch = Some (s', ls) -> fresh ch -> app_stage 2 (DEng s) (eng_act ch ls) (DEng s')
| as_exp : forall x a x', exp_act x a x' -> app_stage 3 (DExp x) a (DExp x').

(** Start of the pipeline: the source with its actions, the plugins after Init. *)
Definition app_start (conf : gomap string) (acts : list (DriverModel.act ReaderModel.rec)) (i : nat) : dstate :=
  match i with
  | 0 => DDrv acts
  | 1 => DRead RIdle ReaderModel.reader_init (option_map (fun ttl => (ttl, f_new)) (filter_config conf))
  | 2 => DEng (live_start rd0)
  | _ => DExp (x_start xstart)
  end.
Definition app_run_to (cap : nat) (conf : gomap string) (acts : list (DriverModel.act ReaderModel.rec)) : list (nat * act) -> cstate msg dstate -> Prop :=
  crun app_stage cap (cinit (app_start conf acts)).
End App.
