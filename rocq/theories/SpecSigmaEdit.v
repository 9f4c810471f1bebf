(** * SpecSigmaEdit: edits of a set of Sigma rules. *)
From Coq Require Import Permutation.
From Verif Require Import GoBase Predicates FlatRecord FalcoModel SigmaModel SpecSigma EngineModel EngineFlat SpecEngine SpecEngineFlat SpecInit SpecEdit.

Section E.
Variable X : sfgo_fns.
Variable M : gomap fieldmap.
Variable pmatch : string -> string -> bool.
(** Condition [e] of rule [r] holds of the record, with the field names [maps] translates. *)
Definition s_holds (maps : gomap (list string)) (fr : flatrec) (r : srule) (e : sexpr) : Prop :=
  cond_holds maps pmatch (flat_satomic X M fr) (sr_searches r) e.

(** A new rule: a record that meets none of its conditions notices nothing; one that meets [k] of them is
    told [k] times of the rule, at the rule's place among those it was told of before. *)
Definition s_rule_added (maps : gomap (list string)) (r : srule) (m : mode) (fr : flatrec) (v v' : verdict) : Prop :=
  ((forall e, In e (sr_conds r) -> ~ s_holds maps fr r e) /\ v' = v) \/
  exists held p a b, selects (s_holds maps fr r) (sr_conds r) held /\ held <> [] /\ level_is (sr_level r) p /\
    v' = Some (a ++ repeat (sr_id r, sr_desc r, p) (length held) ++ b) /\
    (v = Some (a ++ b) \/ m = AlertMode /\ a = [] /\ b = [] /\ v = None).
(** The same is told, in another order. *)
Definition told_reordered (m : mode) (fr : flatrec) (v v' : verdict) : Prop :=
  match v, v' with
  | None, None => True
  | Some l, Some l' => Permutation l l'
  | _, _ => False
  end.
End E.

(** [y] says what [x] says: same name, description and level, and as many conditions, that hold of the
    same records whatever the data source says of these. *)
Definition s_same_sense (pmatch : string -> string -> bool) (maps maps' : gomap (list string)) (x y : srule) : Prop :=
  sr_id x = sr_id y /\ sr_desc x = sr_desc y /\ sr_level x = sr_level y /\
  Forall2 (fun e e' => forall A, cond_holds maps pmatch A (sr_searches x) e <-> cond_holds maps' pmatch A (sr_searches y) e') (sr_conds x) (sr_conds y).

(** The rule with other searches, or other conditions. *)
Definition with_searches (r : srule) (s : gomap search) : srule := mkSRule (sr_id r) (sr_desc r) (sr_level r) (sr_tags r) (sr_conds r) s.
Definition with_conds (r : srule) (c : list sexpr) : srule := mkSRule (sr_id r) (sr_desc r) (sr_level r) (sr_tags r) c (sr_searches r).

(** A condition does not refer to the search of this name. *)
Fixpoint passes_over (pmatch : string -> string -> bool) (n : string) (e : sexpr) : Prop :=
  match e with
  | SId x => x <> n
  | SAnd l | SOr l => fold_right (fun e P => passes_over pmatch n e /\ P) True l
  | SNot e => passes_over pmatch n e
  | SOneOfThem | SAllOfThem => False
  | SOneOfPattern p | SAllOfPattern p => pmatch p n = false
  | SOther => True
  end.
(** "1 of" and "all of" written out with the names of the searches they are about. *)
Inductive spelled (pmatch : string -> string -> bool) (names : list string) : sexpr -> sexpr -> Prop :=
| sp_same e : spelled pmatch names e e
| sp_and l l' : spelled_all pmatch names l l' -> spelled pmatch names (SAnd l) (SAnd l')
| sp_or l l' : spelled_all pmatch names l l' -> spelled pmatch names (SOr l) (SOr l')
| sp_not e e' : spelled pmatch names e e' -> spelled pmatch names (SNot e) (SNot e')
| sp_one : spelled pmatch names SOneOfThem (SOr (map SId names))
| sp_all : spelled pmatch names SAllOfThem (SAnd (map SId names))
| sp_onep p : spelled pmatch names (SOneOfPattern p) (SOr (map SId (List.filter (pmatch p) names)))
| sp_allp p : spelled pmatch names (SAllOfPattern p) (SAnd (map SId (List.filter (pmatch p) names)))
with spelled_all (pmatch : string -> string -> bool) (names : list string) : list sexpr -> list sexpr -> Prop :=
| spl_nil : spelled_all pmatch names [] []
| spl_cons e e' l l' : spelled pmatch names e e' -> spelled_all pmatch names l l' -> spelled_all pmatch names (e :: l) (e' :: l').
(** The fields the searches of a rule are about. *)
Definition field_of (r : srule) (f : string) : Prop :=
  exists n s em fm, In (n, s) (sr_searches r) /\ In em (se_matchers s) /\ In fm em /\ f = fm_field fm.
