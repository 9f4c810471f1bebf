(** * SpecTune: what it is for two configurations to differ in tuning only (C114). *)
From Verif Require Import GoBase EngineModel.

(** The number of workers and the interval of the policy monitor may differ, nothing else. *)
Definition tuned (conf conf' : gomap cval) : Prop :=
  forall k, k <> "concurrency" -> k <> "monitor.interval" -> mget k conf = mget k conf'.
