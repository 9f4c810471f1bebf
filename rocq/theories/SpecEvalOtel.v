(** * SpecEvalOtel: evaluating policies on logs from left to right, panics included. *)
From Coq Require Import Permutation.
From Verif Require Import GoBase Predicates SpecStrings FalcoModel SpecFalco SigmaModel SpecSigma EngineModel SpecEngine OtelModel SpecOtel OtelEngine SpecOtelEngine EvalModel SpecEval InitModel SpecInit.

Section S.
Variable D : Type.
Variable parse_float : string -> option D.
Variables deq dlt dle : D -> D -> bool.
Notation logs := (logs D).
Notation decides := (decides D).
Notation any_rel := (any_rel D parse_float deq dlt dle).

(** ** The basic tests *)
(** Comparing the attribute found first under [k] with [x]: on a log without a resource, and on a value
    that makes the comparison crash, the process ends. *)
Inductive test_run (r : logs) (k : string) (op : operator) (x : string) : res bool -> Prop :=
| ts_bare : l_resource D r = None -> test_run r k op x Panic
| ts_crash v : l_resource D r <> None -> decides k (log_attrs D r) v -> crashes D op v -> test_run r k op x Panic
| ts_answer b : l_resource D r <> None -> (forall v, decides k (log_attrs D r) v -> ~ crashes D op v) ->
    (b = true <-> exists v, decides k (log_attrs D r) v /\ any_rel op v x) -> test_run r k op x (Ok b).
Inductive exists_run (r : logs) (k : string) : res bool -> Prop :=
| xs_bare : l_resource D r = None -> exists_run r k Panic
| xs_key b : l_resource D r <> None -> (b = true <-> exists v, In (k, v) (log_attrs D r)) -> exists_run r k (Ok b).
(** The items of a list are tried in order. *)
Inductive in_run (r : logs) (k : string) (op : operator) (ys : list string) : res bool -> Prop :=
| is_bare : l_resource D r = None -> in_run r k op ys Panic
| is_items o : l_resource D r <> None -> any_run (fun y o => test_run r k op y o) ys o -> in_run r k op ys o.

(** ** Falco conditions *)
Section Cond.
Variable macros : string -> option expr.
Variable lists : string -> option (list string).
Variable r : logs.
Inductive t_run : term -> res bool -> Prop :=
| rn_macro x e o : macros x = Some e -> any_run (all_run t_run) e o -> t_run (TVar x) o
| rn_unresolved x : macros x = None -> t_run (TVar x) (Ok false)
| rn_not t b : t_run t (Ok b) -> t_run (TNot t) (Ok (negb b))
| rn_not_crash t : t_run t Panic -> t_run (TNot t) Panic
| rn_exists a o : exists_run r a o -> t_run (TExists a) o
| rn_bin l op x o : op <> BNeq -> test_run r l (op_of op) x o -> t_run (TBin l op x) o
| rn_neq l x b : test_run r l OpEq x (Ok b) -> t_run (TBin l BNeq x) (Ok (negb b))
| rn_neq_crash l x : test_run r l OpEq x Panic -> t_run (TBin l BNeq x) Panic
| rn_in a args ys o : arg_items lists args ys -> in_run r a OpEq ys o -> t_run (TIn a args) o
| rn_pmatch a args ys o : arg_items lists args ys -> in_run r a OpContains ys o -> t_run (TPmatch a args) o
| rn_paren e o : any_run (all_run t_run) e o -> t_run (TParen e) o.
Definition e_run : expr -> res bool -> Prop := any_run (all_run t_run).
End Cond.

(** A rule or filter declaration on a log; one that is switched off is not evaluated. *)
Definition rule_off (d : ruledecl) : Prop := exists s, first_such is_enabled_opt (rd_opts d) (OEnabled s) /\ off_word s.
Definition filter_off (d : filterdecl) : Prop := exists s, fd_enabled d = Some s /\ off_word s.
Inductive rule_run (od : occurrence * ruledecl) (r : logs) : res bool -> Prop :=
| rr_off : rule_off (snd od) -> rule_run od r (Ok false)
| rr_on o : ~ rule_off (snd od) -> e_run (oc_macros (fst od)) (oc_lists (fst od)) r (rd_cond (snd od)) o -> rule_run od r o.
Inductive filter_run (od : occurrence * filterdecl) (r : logs) : res bool -> Prop :=
| fr_off : filter_off (snd od) -> filter_run od r (Ok false)
| fr_on o : ~ filter_off (snd od) -> e_run (oc_macros (fst od)) (oc_lists (fst od)) r (fd_cond (snd od)) o -> filter_run od r o.

(** ** What becomes of a log *)
(** The rules are tried one after the other, each on the log its predecessors left, until one panics. *)
Inductive turns {A} (run : A -> logs -> res bool -> Prop) (tells : A -> logs -> logs -> Prop) : list A -> logs -> list A -> res logs -> Prop :=
| tn_nil r : turns run tells [] r [] (Ok r)
| tn_fire a l r r1 fired o : run a r (Ok true) -> tells a r r1 -> turns run tells l r1 fired o -> turns run tells (a :: l) r (a :: fired) o
| tn_skip a l r fired o : run a r (Ok false) -> turns run tells l r fired o -> turns run tells (a :: l) r fired o
| tn_crash a l r : run a r Panic -> turns run tells (a :: l) r [] Panic.
(** [o]: what is passed on, or the panic that ends the process. *)
Inductive p_outcome {F A} (drops : list F) (frun : F -> logs -> res bool -> Prop) (rules : list A) (run : A -> logs -> res bool -> Prop)
    (tells : A -> logs -> logs -> Prop) (m : mode) (r : logs) : res (list logs) -> Prop :=
| po_filter_crash : any_run (fun f o => frun f r o) drops Panic -> p_outcome drops frun rules run tells m r Panic
| po_dropped : any_run (fun f o => frun f r o) drops (Ok true) -> p_outcome drops frun rules run tells m r (Ok [])
| po_crash fired : any_run (fun f o => frun f r o) drops (Ok false) -> turns run tells rules r fired Panic ->
    p_outcome drops frun rules run tells m r Panic
| po_silent r' : any_run (fun f o => frun f r o) drops (Ok false) -> turns run tells rules r [] (Ok r') -> m = AlertMode ->
    p_outcome drops frun rules run tells m r (Ok [])
| po_passed fired r' : any_run (fun f o => frun f r o) drops (Ok false) -> turns run tells rules r fired (Ok r') ->
    m = EnrichMode \/ fired <> [] -> p_outcome drops frun rules run tells m r (Ok [r']).
Definition of_disposed (dss : list (list decl)) : mode -> logs -> res (list logs) -> Prop :=
  p_outcome (filter_occs (declared dss)) filter_run (rule_occs (declared dss)) rule_run (told D).
(** Sigma rules: the condition on the log, with the searches of a wildcard in some order. *)
Definition s_run (pmatch : string -> string -> bool) (maps : gomap (list string)) (re : srule * sexpr) (r : logs) (o : res bool) : Prop :=
  exists tst, (forall k x op, test_run r k op x (tst k x op)) /\ cond_run maps pmatch tst (sr_searches (fst re)) (snd re) o.
Definition os_disposed (pmatch : string -> string -> bool) (maps : gomap (list string)) (srs : list srule) : mode -> logs -> res (list logs) -> Prop :=
  p_outcome ([] : list unit) (fun _ _ _ => False) (s_conditions srs) (s_run pmatch maps) (s_told D).

(** The first thing the evaluation of a term does is a test of the log. *)
Inductive begins (macros : string -> option expr) : term -> Prop :=
| bg_exists a : begins macros (TExists a)
| bg_bin l op x : begins macros (TBin l op x)
| bg_in a args : begins macros (TIn a args)
| bg_pmatch a args : begins macros (TPmatch a args)
| bg_not t : begins macros t -> begins macros (TNot t)
| bg_paren t c e : begins macros t -> begins macros (TParen ((t :: c) :: e))
| bg_macro x t c e : macros x = Some ((t :: c) :: e) -> begins macros t -> begins macros (TVar x).
(** The attributes a term tests, those of the macros it refers to included. *)
Inductive looks (macros : string -> option expr) : term -> string -> Prop :=
| lk_exists a : looks macros (TExists a) a
| lk_bin l op x : looks macros (TBin l op x) l
| lk_in a args : looks macros (TIn a args) a
| lk_pmatch a args : looks macros (TPmatch a args) a
| lk_not t k : looks macros t k -> looks macros (TNot t) k
| lk_paren e c t k : In c e -> In t c -> looks macros t k -> looks macros (TParen e) k
| lk_macro x e c t k : macros x = Some e -> In c e -> In t c -> looks macros t k -> looks macros (TVar x) k.
Definition e_looks (macros : string -> option expr) (e : expr) (k : string) : Prop := exists c t, In c e /\ In t c /\ looks macros t k.
(** The attributes the declarations of a policy test are all in [K]. *)
Definition policy_looks (dss : list (list decl)) (K : string -> Prop) : Prop :=
  (forall od k, In od (rule_occs (declared dss)) -> e_looks (oc_macros (fst od)) (rd_cond (snd od)) k -> K k) /\
  (forall od k, In od (filter_occs (declared dss)) -> e_looks (oc_macros (fst od)) (fd_cond (snd od)) k -> K k).
(** The first thing the evaluation of an expression does is a test of the log. *)
Definition starts (macros : string -> option expr) (e : expr) : Prop := exists t c e', e = (t :: c) :: e' /\ begins macros t.
End S.
