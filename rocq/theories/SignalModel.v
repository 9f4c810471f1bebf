(** * SignalModel: stop signals against the start and the run of the program
    (driver/main.go:38-55, 136-171; driver/pipeline/pipeline.go:83-118, 207-245; the loops of
    driver/sysflow/{filedriver,streamingdriver}.go and driver/otel/{filedriver,kafkadriver}.go).

    Goroutines: main, the one waiting for a signal, and the drivers (the last one runs in main).  Each takes one atomic step at a
    time; the flag [running] is read and written in single steps (the data race on it could only add behaviours).

    Simplifications: of a driver only the readings of the flag, the sends and the end are kept; a file driver may give up any number of
    records (what cannot be read).  The receiver of a driver's channel is always ready; closing it and waiting for the stages is one
    step with the end. *)
From Verif Require Import GoBase.
Local Open Scope nat_scope.

Section S.
Context {R : Type}.
Inductive kind := KFile (data : list R) | KSocket | KKafka.
(** Where a driver is.  [closed]: Cleanup has closed its connection. *)
Inductive dstate :=
| DNew
| FPoll (rest : list R)                  (* filedriver.go:151-152, 172: before it reads the flag *)
| FSend (r : R) (rest : list R)          (* 161: has read true *)
| SPoll                                  (* streamingdriver.go:123 *)
| SAccept                                (* 128 *)
| SInner (closed : bool)                 (* 134 *)
| SRead (closed : bool)                  (* 136 *)
| SSend (r : R) (closed : bool)          (* 150 *)
| KRead                                  (* kafkadriver.go:98 *)
| KSend (rest : list R)                  (* 115-117 *)
| DDone (err : bool).
Definition d_start (k : kind) : dstate := match k with KFile l => FPoll l | KSocket => SPoll | KKafka => KRead end.
(** Cleanup: filedriver.go:184-189 (reading the file fails from now on, which is one of the ways to give up records),
    streamingdriver.go:161-166, kafkadriver.go:122-124. *)
Definition d_cleanup (d : dstate) : dstate :=
  match d with SInner _ => SInner true | SRead _ => SRead true | SSend r _ => SSend r true | _ => d end.
(** A step of a driver that reads [running] in the flag; the label: the record sent, if any. *)
Inductive dstep (running : bool) : dstate -> option R -> dstate -> Prop :=
| ds_next : forall r l, running = true -> dstep running (FPoll (r :: l)) None (FSend r l)
| ds_skip : forall r l, running = true -> dstep running (FPoll (r :: l)) None (FPoll l)
| ds_end : dstep running (FPoll []) None (DDone false)
| ds_stop : forall l, running = false -> dstep running (FPoll l) None (DDone false)
| ds_send : forall r l, dstep running (FSend r l) (Some r) (FPoll l)
| ss_poll : running = true -> dstep running SPoll None SAccept
| ss_stop : running = false -> dstep running SPoll None (DDone false)
| ss_connect : dstep running SAccept None (SInner false)
| ss_refused : dstep running SAccept None (DDone false)      (* 129-132: Accept fails *)
| ss_inner : forall c, running = true -> dstep running (SInner c) None (SRead c)
| ss_leave : forall c, running = false -> dstep running (SInner c) None SPoll
| ss_msg : forall r, dstep running (SRead false) None (SSend r false)
| ss_fail : forall c, dstep running (SRead c) None SPoll
| ss_send : forall r c, dstep running (SSend r c) (Some r) (SInner c)
| ks_msg : forall l, dstep running KRead None (KSend l)
| ks_err : dstep running KRead None (DDone true)
| ks_send : forall r l, dstep running (KSend (r :: l)) (Some r) (KSend l)
| ks_next : dstep running (KSend []) None KRead.

(** main.go and pipeline.go: where main is. *)
Inductive mpc :=
| MBoot                 (* main.go:39-40, before signal.Notify *)
| MSpawn                (* 41, before the goroutine is created *)
| MFlags                (* 57-135, before pipeline.New *)
| MLoad                 (* pipeline.go:83-203; [s_loaded] drivers are in pl.drivers *)
| MInit (i : nat)       (* pipeline.go:212-219, about to initialise driver i *)
| MStart (i : nat)      (* 221, about to set the flag *)
| MRun (i : nat)        (* 223-231, about to run driver i *)
| MAwait                (* 224, in Run of the last driver *)
| MExit (status : Z).
(** The goroutine of main.go:41-47 with Shutdown (pipeline.go:238-245), which ranges over the drivers there are when it begins. *)
Inductive hpc := HNone | HSpawned | HWait | HGot | HShut | HClean (j n : nat) | HDone.
Record sys := mkSys { s_main : mpc; s_hdl : hpc; s_pl : bool; s_loaded : nat; s_running : bool; s_drv : list dstate }.
Variable kinds : list kind.      (* the drivers of the configuration *)
Definition sys0 : sys := mkSys MBoot HNone false 0 false (map (fun _ => DNew) kinds).
Fixpoint upd (l : list dstate) (i : nat) (d : dstate) : list dstate :=
  match l, i with [], _ => [] | _ :: l', O => d :: l' | x :: l', S i' => x :: upd l' i' d end.
Definition killed : Z := 143.    (* by the signal itself *)

Inductive lab := LSignal | LMain | LHandler | LDrv (i : nat) (o : option R).
(** Nothing happens after [MExit]. *)
Inductive step (s : sys) : lab -> sys -> Prop :=
(** A signal: without Notify it kills; else it is handed to the channel, which has no buffer, if the goroutine is waiting, and dropped if not
    (signal.Notify does not block). *)
| st_kill : s_main s = MBoot -> step s LSignal (mkSys (MExit killed) (s_hdl s) (s_pl s) (s_loaded s) (s_running s) (s_drv s))
| st_take : s_main s <> MBoot -> (forall z, s_main s <> MExit z) -> s_hdl s = HWait ->
    step s LSignal (mkSys (s_main s) HGot (s_pl s) (s_loaded s) (s_running s) (s_drv s))
| st_drop : s_main s <> MBoot -> (forall z, s_main s <> MExit z) -> s_hdl s <> HWait -> step s LSignal s
(** The goroutine. *)
| st_wait : (forall z, s_main s <> MExit z) -> s_hdl s = HSpawned -> step s LHandler (mkSys (s_main s) HWait (s_pl s) (s_loaded s) (s_running s) (s_drv s))
| st_nil : (forall z, s_main s <> MExit z) -> s_hdl s = HGot -> s_pl s = false -> step s LHandler (mkSys (s_main s) HDone (s_pl s) (s_loaded s) (s_running s) (s_drv s))
| st_pl : (forall z, s_main s <> MExit z) -> s_hdl s = HGot -> s_pl s = true -> step s LHandler (mkSys (s_main s) HShut (s_pl s) (s_loaded s) (s_running s) (s_drv s))
| st_flag : (forall z, s_main s <> MExit z) -> s_hdl s = HShut ->
    step s LHandler (mkSys (s_main s) (HClean 0 (s_loaded s)) (s_pl s) (s_loaded s) false (s_drv s))
| st_clean : forall j n d, (forall z, s_main s <> MExit z) -> s_hdl s = HClean j n -> j < n -> nth_error (s_drv s) j = Some d ->
    step s LHandler (mkSys (s_main s) (HClean (S j) n) (s_pl s) (s_loaded s) (s_running s) (upd (s_drv s) j (d_cleanup d)))
| st_over : forall j n, (forall z, s_main s <> MExit z) -> s_hdl s = HClean j n -> n <= j ->
    step s LHandler (mkSys (s_main s) HDone (s_pl s) (s_loaded s) (s_running s) (s_drv s))
(** main *)
| st_notify : s_main s = MBoot -> step s LMain (mkSys MSpawn (s_hdl s) (s_pl s) (s_loaded s) (s_running s) (s_drv s))
| st_spawn : s_main s = MSpawn -> step s LMain (mkSys MFlags HSpawned (s_pl s) (s_loaded s) (s_running s) (s_drv s))
| st_new : s_main s = MFlags -> step s LMain (mkSys MLoad (s_hdl s) true (s_loaded s) (s_running s) (s_drv s))
| st_quit : s_main s = MFlags \/ s_main s = MLoad -> forall z, step s LMain (mkSys (MExit z) (s_hdl s) (s_pl s) (s_loaded s) (s_running s) (s_drv s))
| st_load : s_main s = MLoad -> s_loaded s < length kinds -> step s LMain (mkSys MLoad (s_hdl s) (s_pl s) (S (s_loaded s)) (s_running s) (s_drv s))
| st_loaded : s_main s = MLoad -> s_loaded s = length kinds -> 0 < length kinds ->
    step s LMain (mkSys (MInit 0) (s_hdl s) (s_pl s) (s_loaded s) (s_running s) (s_drv s))
| st_init : forall i, s_main s = MInit i -> step s LMain (mkSys (MStart i) (s_hdl s) (s_pl s) (s_loaded s) (s_running s) (s_drv s))
| st_initerr : forall i, s_main s = MInit i -> step s LMain (mkSys (MExit 1) (s_hdl s) (s_pl s) (s_loaded s) (s_running s) (s_drv s))
| st_start : forall i, s_main s = MStart i -> step s LMain (mkSys (MRun i) (s_hdl s) (s_pl s) (s_loaded s) true (s_drv s))
| st_run : forall i k, s_main s = MRun i -> nth_error kinds i = Some k ->
    step s LMain (mkSys (if Nat.eqb (S i) (length kinds) then MAwait else MInit (S i)) (s_hdl s) (s_pl s) (s_loaded s) (s_running s) (upd (s_drv s) i (d_start k)))
| st_end : forall err, s_main s = MAwait -> nth_error (s_drv s) (length kinds - 1) = Some (DDone err) ->
    step s LMain (mkSys (MExit (if err then 1 else 0)%Z) (s_hdl s) (s_pl s) (s_loaded s) (if err then false else s_running s) (s_drv s))
(** A driver that has been started. *)
| st_drv : forall i d o d', (forall z, s_main s <> MExit z) -> nth_error (s_drv s) i = Some d -> dstep (s_running s) d o d' ->
    step s (LDrv i o) (mkSys (s_main s) (s_hdl s) (s_pl s) (s_loaded s) (s_running s) (upd (s_drv s) i d')).
Inductive steps (s : sys) : list lab -> sys -> Prop :=
| sp_nil : steps s [] s
| sp_snoc : forall tr s1 l s2, steps s tr s1 -> step s1 l s2 -> steps s (tr ++ [l]) s2.
End S.
Arguments kind : clear implicits.
Arguments dstate : clear implicits.
Arguments sys : clear implicits.
Arguments lab : clear implicits.
