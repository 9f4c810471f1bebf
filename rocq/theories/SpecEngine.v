(** * SpecEngine: what a worker should do to a record. *)
From Verif Require Import GoBase Predicates EngineModel.

Section S.
Context {R : Type}.
Definition annots (es : list (effect R)) : list (rule R) :=
  flat_map (fun e => match e with FAnnot ru => [ru] | _ => [] end) es.
Definition acts (es : list (effect R)) : list string :=
  flat_map (fun e => match e with FAct a _ _ => [a] | _ => [] end) es.
Definition outs (es : list (effect R)) : list R :=
  flat_map (fun e => match e with FOut r => [r] | _ => [] end) es.

(** A rule that fires on a record. *)
Definition fires (applicable : R -> rule R -> bool) (r : R) (ru : rule R) : Prop :=
  r_enabled ru = true /\ applicable r ru = true /\ r_cond ru r = true.
(** [l'] is the sublist of exactly the elements of [l] satisfying [P], in order. *)
Inductive selects {A} (P : A -> Prop) : list A -> list A -> Prop :=
| sel_nil : selects P [] []
| sel_take a l l' : P a -> selects P l l' -> selects P (a :: l) (a :: l')
| sel_skip a l l' : ~ P a -> selects P l l' -> selects P (a :: l) l'.

(** The last file declaring an action under a name. *)
Inductive declares : list (option (string * action R)) -> string -> action R -> Prop :=
| dc_intro fs1 fs2 a f : (forall g, ~ In (Some (a, g)) fs2) -> declares (fs1 ++ Some (a, f) :: fs2) a f.

(** [same] relates records that conditions and prefilters cannot tell apart, and neither
    annotating nor acting on a record leaves its class. *)
Definition inert (same : R -> R -> Prop) (applicable : R -> rule R -> bool) (add_rule : R -> rule R -> R) (ah : ahandler R) (rules : list (rule R)) : Prop :=
  (forall r, same r r) /\ (forall a b c, same a b -> same b c -> same a c) /\
  (forall a b ru, same a b -> In ru rules -> r_cond ru a = r_cond ru b /\ applicable a ru = applicable b ru) /\
  (forall r ru, same r (add_rule r ru)) /\
  (forall a f r, find_action ah a = Some f -> same r (fst (f r))).

(** The effects of the fired rules: one block per rule, in order, made of its annotation and
    then its known actions in declaration order, each run once and on its registered function. *)
Inductive blocks (ah : ahandler R) : list (rule R) -> list (effect R) -> Prop :=
| bl_nil : blocks ah [] []
| bl_cons ru rus es es' : annots es = [] -> outs es = [] ->
    selects (fun a => find_action ah a <> None) (r_actions ru) (acts es) ->
    (forall a f x, In (FAct a f x) es -> find_action ah a = Some f) ->
    blocks ah rus es' -> blocks ah (ru :: rus) (FAnnot ru :: es ++ es').
(** Each action runs on the record its predecessor left. *)
Inductive thread : R -> list (effect R) -> R -> Prop :=
| th_nil r : thread r [] r
| th_act r a f es r' : thread (fst (f r)) es r' -> thread r (FAct a f r :: es) r'.
End S.

(** ** Configuration *)
(** The option is given as a string. *)
Definition given (conf : gomap cval) (k s : string) : Prop := mget k conf = Some (CStr s).
Definition not_given (conf : gomap cval) (k : string) : Prop := forall s, ~ given conf k s.
(** A text option with a default. *)
Definition text_option (conf : gomap cval) (k d v : string) : Prop := given conf k v \/ (not_given conf k /\ v = d).
(** A word option: [tbl] lists the documented words; any other word means [other]; [d] if absent. *)
Definition word_option {A} (conf : gomap cval) (k : string) (tbl : list (string * A)) (other d v : A) : Prop :=
  (exists w, given conf k w /\ (In (w, v) tbl \/ (forall a, ~ In (w, a) tbl) /\ v = other)) \/ (not_given conf k /\ v = d).
(** A numeric option: a given well-formed number is taken, [d] is used if absent. *)
Definition number_option (conf : gomap cval) (k : string) (d v : Z) : Prop :=
  (forall w z, given conf k w -> parse_int64 w = Some z -> v = z) /\ (not_given conf k -> v = d).
