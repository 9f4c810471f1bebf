(** * SpecElastic: what an index holds after a set of documents was sent to it. *)
From Verif Require Import GoBase FlatRecord EcsModel.

(** The documents of [ix] stay; every other document of [ix'] is one of [docs], under its identifier. *)
Definition only_from (ix : gomap ecsdoc) (docs : list ecsdoc) (ix' : gomap ecsdoc) : Prop :=
  (forall id d, mget id ix = Some d -> mget id ix' = Some d) /\
  (forall id d, mget id ix' = Some d -> mget id ix = Some d \/ (In d docs /\ e_id d = id)).
(** [d] is in the index, or a document with the same identifier that was there or was sent, too. *)
Definition represented (ix : gomap ecsdoc) (docs : list ecsdoc) (ix' : gomap ecsdoc) (d : ecsdoc) : Prop :=
  exists d', mget (e_id d) ix' = Some d' /\ (d' = d \/ mget (e_id d) ix = Some d' \/ (In d' docs /\ e_id d' = e_id d)).
