(** * SpecExample: the records of a stream with what came before each; what a health check is to say. *)
From Verif Require Import GoBase ReaderModel SpecReader.
Open Scope string_scope.

Fixpoint with_history (before : list rec) (rs : list rec) : list (list rec * rec) :=
  match rs with [] => [] | r :: rs' => (before, r) :: with_history (before ++ [r]) rs' end.
(** What the printer logs about an event record: its kind, the executable of its process, a number. *)
Definition kind_of (r : rec) : option string :=
  match r with
  | RNetFlow _ _ => Some "NetworkFlow" | RFileFlow _ _ _ => Some "FileFlow" | RFileEvt _ _ _ _ => Some "FileEvt" | RProcEvt _ _ => Some "ProcEvt"
  | _ => None
  end.
Definition is_event (r : rec) : bool := match kind_of r with Some _ => true | None => false end.
(** The events of a stream, in order, each with what came before it. *)
Definition events_of (rs : list rec) : list (list rec * rec) := filter (fun hr => is_event (snd hr)) (with_history [] rs).
(** [known h r]: the process of the event [r] that follows [h] is known. *)
Definition known (h : list rec) (r : rec) : Prop :=
  exists s id p, Since is_header h s /\ subject r = Some id /\ ProcInForce ann_rec s id (Some p).
Definition line_for (num : rec -> Z) (h : list rec) (r : rec) (l : string) : Prop :=
  exists s id p k, Since is_header h s /\ subject r = Some id /\ ProcInForce ann_rec s id (Some p) /\ kind_of r = Some k /\
    l = k ++ " " ++ p_exe p ++ ", " ++ format_int (num r).
(** The record behind a call. *)
Definition rec_of (c : call) : rec :=
  match c with
  | HProcEvt o n => RProcEvt o n | HNetFlow o n => RNetFlow o n | HFileFlow o f n => RFileFlow o f n | HFileEvt o f nf n => RFileEvt o f nf n
  | _ => ROther 0
  end.
