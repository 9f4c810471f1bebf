(** * SpecOtelEngine: what policies mean on logs, and what becomes of a log. *)
From Coq Require Import Permutation.
From Verif Require Import GoBase Predicates SpecStrings FalcoModel SpecFalco SigmaModel SpecSigma EngineModel SpecEngine OtelModel SpecOtel InitModel SpecInit.

Section S.
Variable D : Type.
Variable parse_float : string -> option D.
Variables deq dlt dle : D -> D -> bool.
Variable regcomp : string -> option (string -> string).
Notation logs := (logs D).
Notation any_rel := (any_rel D parse_float deq dlt dle).
Notation decides := (decides D).

(** The attributes of a log, in the documented order. *)
Definition log_attrs (r : logs) : kvs D := match l_resource D r with Some a => attributes D a (l_scopes D r) | None => [] end.
(** The attribute found first under [k] stands in the relation [op] to [x]. *)
Definition test (r : logs) (k : string) (op : operator) (x : string) : Prop :=
  exists v, decides k (log_attrs r) v /\ any_rel op v x.
Definition o_atomic (r : logs) : atomic := mkAtomic
  (fun k => exists v, In (k, v) (log_attrs r))
  (fun k op x => test r k op x)
  (fun k op ys => exists x, In x ys /\ test r k op x).
Definition o_satomic (r : logs) : satomic := mkSAtomic
  (fun k op x => test r k op x)
  (fun k re => exists find s, regcomp re = Some find /\ first_value D k (log_attrs r) (AStr D s) /\ find s <> "").

(** A rule or filter declaration fires on a log; prefilters play no role for logs. *)
Definition o_rule_fires (od : occurrence * ruledecl) (r : logs) : Prop :=
  let (o, d) := od in
  ~ (exists s, first_such is_enabled_opt (rd_opts d) (OEnabled s) /\ off_word s) /\
  ev (oc_macros o) (oc_lists o) (o_atomic r) (rd_cond d) true.
Definition o_filter_fires (od : occurrence * filterdecl) (r : logs) : Prop :=
  let (o, d) := od in
  ~ (exists s, fd_enabled d = Some s /\ off_word s) /\
  ev (oc_macros o) (oc_lists o) (o_atomic r) (fd_cond d) true.

(** [r'] is [r] with the rule name [n] and the tags [ts] noted in the processor's own scope, which
    comes last; everything else is as it was. *)
Inductive noted (n : string) (ts : list string) : logs -> logs -> Prop :=
| nt_first : forall res scopes, Forall (foreign D) scopes -> noted n ts (mkLogs D res scopes) (mkLogs D res (scopes ++ [own D [n] ts]))
| nt_more : forall res scopes rs ts0, Forall (foreign D) scopes ->
    noted n ts (mkLogs D res (scopes ++ [own D rs ts0])) (mkLogs D res (scopes ++ [own D (rs ++ [n]) (ts0 ++ ts)])).
(** A log as it comes from a source, or from another policy engine. *)
Definition regular (r : logs) : Prop :=
  exists res scopes, Forall (foreign D) scopes /\ (r = mkLogs D res scopes \/ exists rs ts, r = mkLogs D res (scopes ++ [own D rs ts])).
(** What a firing declaration leaves in the log: its name and its tags, each once, in any order. *)
Definition told (od : occurrence * ruledecl) (r r' : logs) : Prop :=
  exists ts0 ts, listed OTags (rd_opts (snd od)) ts0 /\ NoDup ts /\ (forall t, In t ts <-> In t ts0) /\ noted (rd_name (snd od)) ts r r'.
Definition s_told (re : srule * sexpr) (r r' : logs) : Prop :=
  exists ts, NoDup ts /\ (forall t, In t ts <-> In t (sr_tags (fst re))) /\ noted (sr_id (fst re)) ts r r'.

(** The rules are tried one after the other, each on the log its predecessors left. *)
Inductive in_turn {A} (fires : A -> logs -> Prop) (tells : A -> logs -> logs -> Prop) : list A -> logs -> list A -> logs -> Prop :=
| it_nil : forall r, in_turn fires tells [] r [] r
| it_fire : forall a l r r1 fired r', fires a r -> tells a r r1 -> in_turn fires tells l r1 fired r' -> in_turn fires tells (a :: l) r (a :: fired) r'
| it_skip : forall a l r fired r', ~ fires a r -> in_turn fires tells l r fired r' -> in_turn fires tells (a :: l) r fired r'.
(** What becomes of a log. *)
Definition o_outcome {A} (drop : Prop) (rules : list A) (fires : A -> logs -> Prop) (tells : A -> logs -> logs -> Prop)
    (m : mode) (r : logs) (o : list logs) : Prop :=
  (drop /\ o = []) \/
  (~ drop /\ exists fired r', in_turn fires tells rules r fired r' /\
     (m = AlertMode /\ fired = [] /\ o = [] \/ (m = EnrichMode \/ fired <> []) /\ o = [r'])).
Definition o_disposed (dss : list (list decl)) (m : mode) (r : logs) (o : list logs) : Prop :=
  o_outcome (exists od, In od (filter_occs (declared dss)) /\ o_filter_fires od r) (rule_occs (declared dss)) o_rule_fires told m r o.
Definition so_disposed (pmatch : string -> string -> bool) (maps : gomap (list string)) (srs : list srule) (m : mode) (r : logs) (o : list logs) : Prop :=
  o_outcome False (s_conditions srs) (fun re r => cond_holds maps pmatch (o_satomic r) (sr_searches (fst re)) (snd re)) s_told m r o.

(** Actions that leave the log as it is. *)
Definition harmless (ah : ahandler logs) : Prop := forall a f r, find_action ah a = Some f -> fst (f r) = r.
(** Expressions that do not look at the processor's own attributes. *)
Definition own_key (k : string) : Prop := k = "sf.processor.rules" \/ k = "sf.processor.tags".
(** No condition and no macro of the files names one of them. *)
Definition looks_away (dss : list (list decl)) : Prop :=
  forall ds d k, In ds dss -> In d ds -> In k (decl_operands d) -> ~ own_key k.
(** What becomes of a log that no engine has seen, when the conditions look away from the
    annotations: the rules are selected by the log alone, and their names and tags are noted in one
    new scope at the end. *)
Definition o_told_once (dss : list (list decl)) (m : mode) (r : logs) (o : list logs) : Prop :=
  let drop := exists od, In od (filter_occs (declared dss)) /\ o_filter_fires od r in
  (drop /\ o = []) \/
  (~ drop /\ exists fired, selects (fun od => o_rule_fires od r) (rule_occs (declared dss)) fired /\
     ((fired = [] /\ o = (match m with EnrichMode => [r] | AlertMode => [] end)) \/
      (fired <> [] /\ exists tss,
         Forall2 (fun od ts => exists ts0, listed OTags (rd_opts (snd od)) ts0 /\ NoDup ts /\ (forall t, In t ts <-> In t ts0)) fired tss /\
         o = [mkLogs D (l_resource D r) (l_scopes D r ++ [own D (map (fun od => rd_name (snd od)) fired) (concat tss)])]))).
(** The log has a resource, and no value that decides a test of one of the keys makes a test crash. *)
Definition calm (K : string -> Prop) (r : logs) : Prop :=
  l_resource D r <> None /\ forall k v op, K k -> decides k (log_attrs r) v -> ~ crashes D op v.
End S.
