(** * SpecCrash: what a life of the processor did. *)
From Verif Require Import GoBase ExportModel ChainModel SpecRest OtelPipe CrashModel.
Local Open Scope nat_scope.

Section S.
Context {R : Type}.
(** The message at offset [i] was read; the logs of messages; the logs exported; those waiting in the exporter for their batch. *)
Definition was_read (l : life R) (i : nat) : Prop := l_from l <= i < l_from l + l_read l.
Definition logs_of (parse : string -> option (list R)) (ms : list string) : list R := flat_map (fun m => match parse m with Some rs => rs | None => [] end) ms.
Definition exports (l : life R) : list R := match c_st (l_end l) 2 with OExp x => concat (x_batches x) | _ => [] end.
Definition waiting (l : life R) : list R := match c_st (l_end l) 2 with OExp x => held x | _ => [] end.
End S.
