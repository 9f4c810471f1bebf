(** * SpecEngineFlat: which declarations of a policy fire on a flattened record. *)
From Verif Require Import GoBase Predicates SpecStrings FlatRecord FalcoModel SpecFalco SpecFlat EngineModel EngineFlat SpecEngine.

Section S.
Variable X : sfgo_fns.
Variable M : gomap fieldmap.
Variable typ : flatrec -> string. (* the record's type name *)

(** A rule declaration, at its place in the policy files, fires on a record. *)
Definition decl_fires (fr : flatrec) (od : occurrence * ruledecl) : Prop :=
  let (o, d) := od in
  ~ (exists s, first_such is_enabled_opt (rd_opts d) (OEnabled s) /\ off_word s) /\
  ((forall it, ~ In (OPrefilter it) (rd_opts d)) \/
   exists it, first_such (fun o => exists it', o = OPrefilter it') (rd_opts d) (OPrefilter it) /\
     In (typ fr) (map trim_bounding_quotes (it_atoms it))) /\
  ev (oc_macros o) (oc_lists o) (flat_atomic X M fr) (rd_cond d) true.
Definition filter_fires (fr : flatrec) (od : occurrence * filterdecl) : Prop :=
  let (o, d) := od in
  ~ (exists s, fd_enabled d = Some s /\ off_word s) /\
  ev (oc_macros o) (oc_lists o) (flat_atomic X M fr) (fd_cond d) true.
(** What a record is told about a rule that fired on it: the rule's name, description, priority,
    actions and tags, as declared. *)
Definition marked (od : occurrence * ruledecl) (mt : rmeta) : Prop :=
  let (o, d) := od in
  m_name mt = rd_name d /\ m_desc mt = rd_desc d /\
  (forall s, first_such is_priority_opt (rd_opts d) (OPriority s) ->
     (m_prio mt = PHigh <-> In (to_lower s) high_words) /\
     (m_prio mt = PMedium <-> In (to_lower s) medium_words) /\
     (m_prio mt = PHigh \/ m_prio mt = PMedium \/ m_prio mt = PLow)) /\
  ((forall o', In o' (rd_opts d) -> ~ is_priority_opt o') -> m_prio mt = PLow) /\
  listed OActions (rd_opts d) (m_actions mt) /\
  (exists ts, listed OTags (rd_opts d) ts /\ (m_tags mt = [] /\ ts = [] \/ m_tags mt = [TagList ts])).
(** Actions that neither change the record's data nor its matched rules (they may add tags and
    hashes). *)
Definition benign (ah : ahandler sfrec) : Prop :=
  forall a f r, find_action ah a = Some f ->
    fst (fst (f r)) = fst r /\ ctx_getrules (snd (fst (f r))) = ctx_getrules (snd r).
End S.
