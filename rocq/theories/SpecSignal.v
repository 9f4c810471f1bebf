(** * SpecSignal: what is said about stop signals (C113), without the model's helpers. *)
From Verif Require Import GoBase SignalModel.
Local Open Scope nat_scope.

Section S.
Context {R : Type}.
(** What driver [i] hands to the pipeline in a run. *)
Definition sent_by (i : nat) (tr : list (lab R)) : list R :=
  flat_map (fun l => match l with LDrv j (Some r) => if Nat.eqb i j then [r] else [] | _ => [] end) tr.
Definition no_signal (l : lab R) : bool := match l with LSignal => false | _ => true end.
(** A step of driver [i] alone. *)
Definition only (i : nat) (l : lab R) : Prop := exists o, l = LDrv i o.
(** The goroutine has received a signal; it has carried out the stop (cleared the flag, or found no pipeline). *)
Definition received (s : sys R) : Prop := match s_hdl s with HNone | HSpawned | HWait => False | _ => True end.
Definition carried_out (s : sys R) : Prop := match s_hdl s with HClean _ _ | HDone => True | _ => False end.
(** The program is starting: the last driver has not yet got the flag it will read. *)
Definition starting (s : sys R) : Prop := match s_main s with MFlags | MLoad | MInit _ | MStart _ => True | _ => False end.
Definition over (s : sys R) : Prop := exists z, s_main s = MExit z.
End S.
