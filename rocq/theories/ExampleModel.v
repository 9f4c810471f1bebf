(** * ExampleModel: the plugins shipped as examples, plugins/handlers/printer/printer.go, plugins/processors/example/example.go,
    plugins/actions/example/now.go. *)
From Verif Require Import GoBase FlatRecord EngineModel EngineFlat.
From Verif Require ReaderModel StartModel.
Open Scope string_scope.

Section Printer.
(** The number printed with an event: Dport of a network flow, Fd of a file flow, Tid of file and process events. *)
Variable num : ReaderModel.call -> Z.
(** printer.go:95-127: what the method for a delivery logs.  [sf.Process] is dereferenced without a test.  The methods for entities and
    Kubernetes events (printer.go:64-92) log nothing; network events and process flows are never delivered (ReaderModel.reader_step). *)
Definition printer (d : ReaderModel.delivery) : res (list string) :=
  let line kind := match ReaderModel.x_proc (fst d) with
                   | Some p => Ok [kind ++ " " ++ ReaderModel.p_exe p ++ ", " ++ format_int (num (snd d))]
                   | None => Panic
                   end in
  match snd d with
  | ReaderModel.HNetFlow _ _ => line "NetworkFlow"
  | ReaderModel.HFileFlow _ _ _ => line "FileFlow"
  | ReaderModel.HFileEvt _ _ _ _ => line "FileEvt"
  | ReaderModel.HProcEvt _ _ => line "ProcEvt"
  | _ => Ok []
  end.
(** printer.go:53-55 *)
Definition printer_entities : bool := false.
Fixpoint print_all (ds : list ReaderModel.delivery) : res (list string) :=
  match ds with
  | [] => Ok []
  | d :: ds' => let* l := printer d in let* ls := print_all ds' in Ok (l ++ ls)%list
  end.
(** A reader (reader.go:81-165) with the printer as its handler, on a whole stream. *)
Definition reader_printer (rs : list ReaderModel.rec) : res (list string) :=
  let* (_, ds) := ReaderModel.reader_run printer_entities ReaderModel.reader_init rs in print_all ds.
End Printer.

(** ** The example processor *)
(** What a stage may be handed as a channel: interface{} values holding a pointer to a channel, as all channel factories of the program make
    (reader.go:60-62, processor.go:59-61, flattener.go:40-42, policyengine.go:55-57, kafkadriver.go:49-52), or a channel itself; with the records that
    come until it is closed. *)
Inductive chval := CPtr (t : StartModel.gtype) (n : nat) | CVal (t : StartModel.gtype) (n : nat).
(** example.go:59-81: [wg] is the counter of the wait group; Done below zero panics.  The deferred calls run at the end.  Result: the channels
    drained and the counter. *)
Fixpoint example_drain (chs : list chval) : res nat :=
  match chs with
  | [] => Ok 0
  | CVal StartModel.GFlat _ :: chs' => let* k := example_drain chs' in Ok (S k)
  | _ => Panic
  end.
Definition example_process (chs : list chval) (wg : nat) : res nat :=
  let* k := example_drain chs in if Nat.leb k wg then Ok (wg - k) else Panic.

(** ** The example action *)
(** now.go:39-42, at the time [t] *)
Definition now_action (t : Z) : action sfrec := fun r => ((fst r, ctx_addtags ["now_in_nanos:" ++ format_int t] (snd r)), true).
