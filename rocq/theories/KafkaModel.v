(** * KafkaModel: the Kafka target with the producer it uses (transports/kafka.go:48-83).

    The producer is confluent-kafka-go's: Produce puts a message into the client's queue, which holds at most
    queue.buffering.max.messages ([k_q]) of them, or returns an error, which Export only logs (kafka.go:57-74); in the background
    messages reach the broker or fail, in any order; the report of such a message is then taken by the client's poller, and only
    then does the message leave the queue.  Produce is called without a channel for its report (kafka.go:68), so, unless
    go.delivery.reports is off ([k_fwd]), the report is put into the channel returned by Events, which holds
    go.events.channel.size ([k_e]) reports and which the exporter never reads.  Cleanup (kafka.go:78-83) is Flush(3000) - which waits
    until neither messages nor reports are outstanding, at most three seconds - and Close: what has not arrived by then never does.

    Simplifications: reports are taken one by one (not in batches); a message that failed is not tried again by anybody. *)
From Verif Require Import GoBase ExportModel.
Local Open Scope nat_scope.

Record kclient := mkK { k_q : nat; k_e : nat; k_fwd : bool }.
Inductive kstatus := KPending | KArrived | KFailed.
Record kstate := mkKS { ks_queue : list (string * kstatus); ks_reports : nat; ks_arrived : list string; ks_closed : bool }.
Definition k_init : kstate := mkKS [] 0 [] false.

Inductive klabel :=
| KTry (m : string) (ok : bool)     (* Produce and whether it took the message *)
| KTau
| KDone (early : bool).             (* Cleanup; [early]: Flush found nothing outstanding *)
Section K.
Variable c : kclient.
Inductive kstep (s : kstate) : klabel -> kstate -> Prop :=
| kt_take : forall m, ks_closed s = false -> length (ks_queue s) < k_q c ->
    kstep s (KTry m true) (mkKS (ks_queue s ++ [(m, KPending)]) (ks_reports s) (ks_arrived s) false)
| kt_refuse : forall m, ks_closed s = false -> k_q c <= length (ks_queue s) -> kstep s (KTry m false) s
| kt_arrive : forall a m b, ks_closed s = false -> ks_queue s = a ++ (m, KPending) :: b ->
    kstep s KTau (mkKS (a ++ (m, KArrived) :: b) (ks_reports s) (ks_arrived s ++ [m]) false)
| kt_fail : forall a m b, ks_closed s = false -> ks_queue s = a ++ (m, KPending) :: b ->
    kstep s KTau (mkKS (a ++ (m, KFailed) :: b) (ks_reports s) (ks_arrived s) false)
| kt_report : forall a m st b, ks_closed s = false -> ks_queue s = a ++ (m, st) :: b -> st <> KPending -> (k_fwd c = true -> ks_reports s < k_e c) ->
    kstep s KTau (mkKS (a ++ b) (if k_fwd c then S (ks_reports s) else ks_reports s) (ks_arrived s) false)
| kt_close : forall early, ks_closed s = false -> (early = true -> ks_queue s = [] /\ ks_reports s = 0) ->
    kstep s (KDone early) (mkKS (ks_queue s) (ks_reports s) (ks_arrived s) true).
Inductive kruns : list klabel -> kstate -> Prop :=
| kr_nil : kruns [] k_init
| kr_snoc : forall tr s l s', kruns tr s -> kstep s l s' -> kruns (tr ++ [l]) s'.
End K.
(** kafka.go:57-75: Export of the items [ds], in the trace: Produce for each that is a text, whatever came of it. *)
Definition k_tried (tr : list klabel) : list string := flat_map (fun l => match l with KTry m _ => [m] | _ => [] end) tr.
Definition k_taken (tr : list klabel) : list string := flat_map (fun l => match l with KTry m true => [m] | _ => [] end) tr.
Definition k_texts (ds : list edata) : list string := flat_map (fun d => match d with DBytes s => [s] | DObj _ _ _ => [] end) ds.

(** ** The end of the program

    The exporter's goroutine runs Process - which ends with wg.Done (exporter.go:120) once its input is closed and all of it exported - and only
    then Cleanup (pipeline.go:291-294); the driver waits for wg (pipeline.go:286-288) and then main returns (main.go:163-183), whatever
    the other goroutines are doing.  [ms]: the texts Export will hand to the producer. *)
Inductive kphase := PExport (rest : list string) | PDone | PClean.
Record xstate := mkX { x_k : kstate; x_phase : kphase; x_exited : bool }.
Definition x_init (ms : list string) : xstate := mkX k_init (PExport ms) false.
Inductive xstep (c : kclient) (x : xstate) : xstate -> Prop :=
| xs_export : forall m rest ok k', x_exited x = false -> x_phase x = PExport (m :: rest) -> kstep c (x_k x) (KTry m ok) k' ->
    xstep c x (mkX k' (PExport rest) false)
| xs_client : forall k', x_exited x = false -> kstep c (x_k x) KTau k' -> xstep c x (mkX k' (x_phase x) false)
| xs_done : x_exited x = false -> x_phase x = PExport [] -> xstep c x (mkX (x_k x) PDone false)
| xs_clean : forall e k', x_exited x = false -> x_phase x = PDone -> kstep c (x_k x) (KDone e) k' -> xstep c x (mkX k' PClean false)
| xs_exit : x_exited x = false -> (x_phase x = PDone \/ x_phase x = PClean) -> xstep c x (mkX (x_k x) (x_phase x) true).
Inductive xruns (c : kclient) (ms : list string) : xstate -> Prop :=
| xr_nil : xruns c ms (x_init ms)
| xr_step : forall x x', xruns c ms x -> xstep c x x' -> xruns c ms x'.
