(** * SpecWatch: when the policies in force are those in the policy directory. *)
From Verif Require Import GoBase MonitorModel SpecMonitor WatchModel.

(** A directory of policy files the monitor looks at: *.yaml, no subdirectories, each name once. *)
Definition plain (d : dir) : Prop := NoDup (map fst d) /\ forall f, In f (map fst d) -> nested f = false /\ has_suffix f ".yaml" = true.
(** Two directories differ in a file. *)
Definition differ (d d' : dir) : Prop := exists f, mget f d <> mget f d'.
(** The directories in the order in which they came about; none comes back. *)
Definition changes (acts : list wact) : list dir := flat_map (fun a => match a with WChange d _ => [d] | _ => [] end) acts.
Fixpoint never_back (ds : list dir) : Prop := match ds with [] => True | d :: ds' => Forall (differ d) ds' /\ never_back ds' end.
(** The watcher reports every change (of such a directory) by an event for a policy file. *)
Definition reported (acts : list wact) : Prop := forall d evs, In (WChange d evs) acts -> existsb has_modified_yaml evs = true.
(** The monitor has nothing to do: it waits, and no event for a policy file is waiting. *)
Definition at_rest {P} (s : wstate P) : Prop := w_phase s = PhIdle /\ existsb has_modified_yaml (w_pending s) = false.
(** What was compiled last; at first, what Init compiled. *)
Definition last_tried {P} (d0 : dir) (tr : list (wlabel P)) : option dir :=
  fold_left (fun x l => match l with LTried f _ => f | _ => x end) tr (Some d0).
(** What the engine works with: the interpreter taken last; at first, Init's. *)
Definition in_force {P} (p0 : P) (tr : list (wlabel P)) : P := fold_left (fun x l => match l with LTook p => p | _ => x end) tr p0.
(** No change fell into a check; the queue always had room for the result of a successful compilation. *)
Definition undisturbed {P} (tr : list (wlabel P)) : Prop := ~ In (LLook false) tr.
Definition room {P} (compile : dir -> option P) (tr : list (wlabel P)) : Prop := forall d, In (LTried (Some d) false) tr -> compile d = None.
(** Steps other than changes of the directory. *)
Definition no_change (acts : list wact) : Prop := changes acts = [].
(** The interpreters taken, in order. *)
Definition takes {P} (tr : list (wlabel P)) : list P := flat_map (fun l => match l with LTook p => [p] | _ => [] end) tr.
(** Steps of the watcher, the monitor and the engine. *)
Definition own (a : wact) : Prop := match a with WChange _ _ | WWatch => False | _ => True end.
(** The states the directory had while it was being looked at. *)
Definition meanwhile {P} (s : wstate P) : list dir := match w_phase s with PhCheck seen | PhCompile _ seen => w_dir s :: seen | _ => [w_dir s] end.
(** The policy files below a directory that are compiled. *)
Definition policy_files (d : dir) : list string :=
  map fst (List.filter (fun f => has_suffix (fst f) ".yaml" || has_suffix (fst f) ".yml") d).
