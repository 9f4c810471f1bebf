(** * SpecChain: vocabulary for runs of the whole pipeline. *)
From Verif Require ReaderModel DriverModel.
From Verif Require Import GoBase EngineModel EngineFlat PoolModel InitModel ExportModel AppModel ChainModel.
Local Open Scope nat_scope.

(** The batches of file events the policy monitor handled, each as what it showed to the compiler. *)
Definition shown (tr : list (nat * sact msg host)) : list host :=
  flat_map (fun ia => match snd ia with TStep (Some h) => [h] | _ => [] end) tr.
(** A source that sends the records [rs] and then closes its channel and waits; or stops without
    closing it (a source that ended with an error, or that is not done yet). *)
Definition complete (rs : list ReaderModel.rec) : list (DriverModel.act ReaderModel.rec) :=
  map DriverModel.ASend rs ++ [DriverModel.AClose; DriverModel.AWait].
Definition source_of (rs : list ReaderModel.rec) (acts : list (DriverModel.act ReaderModel.rec)) : Prop :=
  acts = map DriverModel.ASend rs \/ acts = complete rs.
(** The exporter has left its loop; the batches it handed to its encoder. *)
Definition exported (s : cstate msg dstate) (x : xstate sfrec) : Prop := c_st s 3 = DExp x /\ x_open x = false.
(** A step that is neither a tick of the exporter nor a batch of file events. *)
Definition working (ia : nat * sact msg host) : Prop := ia <> (3, TStep None) /\ forall h, snd ia <> TStep (Some h).
(** Every stage has run to its end and the source is in Wait. *)
Definition all_done (s : cstate msg dstate) : Prop :=
  c_st s 0 = DDrv [DriverModel.AWait] /\ (exists rd f, c_st s 1 = DRead REnd rd f) /\ (exists e, c_st s 2 = DEng e /\ s_main (fst e) = MEnd) /\
  exists x, exported s x.
