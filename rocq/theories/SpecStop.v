(** * SpecStop: what is seen of the monitor. *)
From Verif Require Import GoBase MonitorModel StopModel.
Definition is_poll (a : mact) : bool := match a with APoll => true | _ => false end.
Definition is_quit (a : mact) : bool := match a with AQuit => true | _ => false end.
(** The events reported during an execution. *)
Definition reported (acts : list mact) : list fsevent := flat_map (fun a => match a with AEvent e => [e] | _ => [] end) acts.
(** Steps the monitor takes by itself. *)
Definition own (a : mact) : Prop := match a with AEvent _ | AStop | AWatchErr => False | _ => True end.
Definition running (ph : phase) : Prop := ph <> Gone /\ ph <> NotStarted.
(** A step that neither begins nor ends the emptying of the channel. *)
Definition inner (a : mact) : Prop := a <> AReceive /\ a <> AFinish.
