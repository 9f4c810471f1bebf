(** * SpecHealth: what the health checks of a pipeline are to report. *)
From Verif Require Import GoBase HealthModel.
Open Scope Z_scope.

(** All tests there are return without error; [total]: how long they take, one after the other. *)
Definition all_pass (stages : list (option outcome)) : Prop := forall o, In (Some o) stages -> exists t, o = Passes t.
Definition duration (o : option outcome) : Z := match o with Some (Passes t) => t | _ => 0 end.
Definition total (stages : list (option outcome)) : Z := fold_right Z.add 0 (map duration stages).
