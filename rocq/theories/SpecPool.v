(** * SpecPool: what can be observed of a run of the policy engine plugin.
    All functions read a trace (list of labels) only. *)
From Verif Require Import GoBase PoolModel.

Section S.
Context {P R : Type}.
(** Records received from the input, in order. *)
Definition taken (tr : list (label P R)) : list R :=
  flat_map (fun l => match l with LTake r => [r] | _ => [] end) tr.
(** Records evaluated, each with the policies it was evaluated under, in order of evaluation. *)
Definition evaluated (tr : list (label P R)) : list (P * R) :=
  flat_map (fun l => match l with LEval p r => [(p, r)] | _ => [] end) tr.
(** Records sent on output channel [c], in order. *)
Definition emitted (c : nat) (tr : list (label P R)) : list R :=
  flat_map (fun l => match l with LEmit c' r => if Nat.eqb c c' then [r] else [] | _ => [] end) tr.
(** Policy sets published by the monitor / installed by the plugin. *)
Definition published (tr : list (label P R)) : list P :=
  flat_map (fun l => match l with LPublish p => [p] | _ => [] end) tr.
Definition installed (tr : list (label P R)) : list P :=
  flat_map (fun l => match l with LSwap p => [p] | _ => [] end) tr.
(** Records queued for evaluation, each with the policy set installed last before that moment
    ([p0] initially). *)
Fixpoint accepted (p0 : P) (tr : list (label P R)) : list (P * R) :=
  match tr with
  | [] => []
  | LSwap p :: tr' => accepted p tr'
  | LSubmit r :: tr' => (p0, r) :: accepted p0 tr'
  | _ :: tr' => accepted p0 tr'
  end.
(** What a set of evaluations should make appear on each output channel. *)
Definition due (proc : P -> R -> option R) (evs : list (P * R)) : list R :=
  flat_map (fun pr => match proc (fst pr) (snd pr) with Some r => [r] | None => [] end) evs.
(** Output channels closed, in order. *)
Definition closed_outs (tr : list (label P R)) : list nat :=
  flat_map (fun l => match l with LCloseOut c => [c] | _ => [] end) tr.
(** The plugin has completed Process and Cleanup. *)
Definition finished (s : st P R) : Prop := s_main s = MEnd.
(** The possible starting points, with the initial policy set. *)
Definition starts (conc : nat) (p0 : P) (q : list P) (s : st P R) : Prop :=
  s = init_monitor conc p0 q \/ (q = [] /\ s = init_static conc p0).
(** Choices that bring in neither a record nor a policy set: the plugin's goroutines go on, or
    the input ends. *)
Definition internal (c : choice P R) : bool := match c with CInput (Some _) | CPublish _ => false | _ => true end.
(** Choices by which the plugin's own goroutines go on, without anything from outside. *)
Definition goes_on (c : choice P R) : bool := match c with CExpired _ | CMain | CWorker _ _ => true | _ => false end.
End S.
