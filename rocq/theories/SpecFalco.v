(** * SpecFalco: the truth value of a Falco condition, as a relation on the policy text. *)
From Verif Require Import GoBase Predicates SpecStrings FalcoModel.

(** What the data source says about a record: truth of the basic tests. *)
Record atomic := mkAtomic {
  a_exists : string -> Prop;
  a_cmp : string -> operator -> string -> Prop;
  a_any : string -> operator -> list string -> Prop }.

(** The text without one leading and one trailing quote. *)
Section Truth.
Variable macros : string -> option expr.
Variable lists : string -> option (list string).
Variable A : atomic.

(** [expands x ys]: expanding the list reference or item [x] gives the items [ys]. *)
Inductive expands : string -> list string -> Prop :=
| ex_leaf x : lists x = None -> expands x [trim_bounding_quotes x]
| ex_list x l ys : lists x = Some l -> expands_all l ys -> expands x ys
with expands_all : list string -> list string -> Prop :=
| exa_nil : expands_all [] []
| exa_cons x l ys zs : expands x ys -> expands_all l zs -> expands_all (x :: l) (ys ++ zs).

(** The arguments of in/pmatch: atoms are expanded, inline lists contribute their items. *)
Inductive arg_items : list listarg -> list string -> Prop :=
| ai_nil : arg_items [] []
| ai_atom x l ys zs : expands x ys -> arg_items l zs -> arg_items (LAtom x :: l) (ys ++ zs)
| ai_items it l ys zs : expands_all (it_atoms it) ys -> arg_items l zs -> arg_items (LItems it :: l) (ys ++ zs).

Definition op_of (op : binop) : operator :=
  match op with
  | BLt => OpLt | BLe => OpLEq | BGt => OpGt | BGe => OpGEq | BEq | BNeq => OpEq
  | BContains => OpContains | BIContains => OpIContains
  | BStartswith => OpStartswith | BEndswith => OpEndswith
  end.
Definition cmp_holds (l : string) (op : binop) (r : string) : Prop :=
  match op with BNeq => ~ a_cmp A l OpEq r | _ => a_cmp A l (op_of op) r end.

(** [tv t v]: the term [t] has truth value [v]; [ev] for disjunctions, [cv] for
    conjunctions. *)
Inductive tv : term -> bool -> Prop :=
| tv_macro x e v : macros x = Some e -> ev e v -> tv (TVar x) v
| tv_unresolved x : macros x = None -> tv (TVar x) false
| tv_not t v : tv t v -> tv (TNot t) (negb v)
| tv_exists a (v : bool) : (v = true <-> a_exists A a) -> tv (TExists a) v
| tv_bin l op r (v : bool) : (v = true <-> cmp_holds l op r) -> tv (TBin l op r) v
| tv_in a args ys (v : bool) : arg_items args ys -> (v = true <-> a_any A a OpEq ys) -> tv (TIn a args) v
| tv_pmatch a args ys (v : bool) : arg_items args ys -> (v = true <-> a_any A a OpContains ys) -> tv (TPmatch a args) v
| tv_paren e v : ev e v -> tv (TParen e) v
with ev : expr -> bool -> Prop :=
| ev_nil : ev [] false
| ev_cons c e vc ve : cv c vc -> ev e ve -> ev (c :: e) (vc || ve)
with cv : list term -> bool -> Prop :=
| cv_nil : cv [] true
| cv_cons t c vt vc : tv t vt -> cv c vc -> cv (t :: c) (vt && vc).
End Truth.

(** No inline list literal in an expression. *)
Definition arg_plain (a : listarg) : bool := match a with LAtom _ => true | LItems _ => false end.
Fixpoint term_plain (t : term) : bool :=
  match t with
  | TNot t' => term_plain t'
  | TIn _ args | TPmatch _ args => forallb arg_plain args
  | TParen e => forallb (fun c => forallb term_plain c) e
  | _ => true
  end.
Definition expr_plain (e : expr) : bool := forallb (fun c => forallb term_plain c) e.

(** [x] is the name of the macro used by the term (directly or under not and parentheses). *)
Fixpoint term_refs (t : term) : list string :=
  match t with
  | TVar x => [x]
  | TNot t' => term_refs t'
  | TParen e => concat (map (fun c => concat (map term_refs c)) e)
  | _ => []
  end.
Definition expr_refs (e : expr) : list string := concat (map (fun c => concat (map term_refs c)) e).

(** The operands of the basic tests of a condition. *)
Fixpoint term_operands (t : term) : list string :=
  match t with
  | TVar _ => []
  | TNot t' => term_operands t'
  | TExists a => [a]
  | TBin l _ r => [l; r]
  | TIn l _ | TPmatch l _ => [l]
  | TParen e => concat (map (fun c => concat (map term_operands c)) e)
  end.
Definition expr_operands (e : expr) : list string := concat (map (fun c => concat (map term_operands c)) e).

(** ** Scopes.  The definition of a name seen at one point of one file. *)
Section Scope.
Context {V : Type}.
Variable def : decl -> option (string * V).
(** The last definition of [x] in a list of declarations. *)
Fixpoint last_def (x : string) (ds : list decl) : option V :=
  match ds with
  | [] => None
  | d :: ds' => match last_def x ds' with
                | Some v => Some v
                | None => match def d with
                          | Some (y, v) => if seqb x y then Some v else None
                          | None => None
                          end
                end
  end.
Definition orelse (a b : option V) : option V := match a with Some _ => a | None => b end.
(** Nearest preceding definition in the file, else last in the file, else last in the
    earlier files. *)
Definition visible (earlier pre whole : list decl) (x : string) : option V :=
  orelse (last_def x pre) (orelse (last_def x whole) (last_def x earlier)).
End Scope.
Definition macro_def (d : decl) : option (string * expr) :=
  match d with DMacro x e _ => Some (x, e) | _ => None end.
Definition list_def (d : decl) : option (string * list string) :=
  match d with DList x it => Some (x, extract_items it) | _ => None end.

(** One occurrence of a declaration, with what precedes it. *)
Record occurrence := mkOcc { oc_earlier : list decl; oc_pre : list decl; oc_whole : list decl; oc_decl : decl }.
Fixpoint occs_in (earlier pre whole ds : list decl) : list occurrence :=
  match ds with
  | [] => []
  | d :: ds' => mkOcc earlier pre whole d :: occs_in earlier (pre ++ [d]) whole ds'
  end.
Definition file_decls (f : file) : list decl := match f with Some (ds, _) => ds | None => [] end.
Fixpoint occs (earlier : list decl) (fs : list file) : list occurrence :=
  match fs with
  | [] => []
  | f :: fs' => occs_in earlier [] (file_decls f) (file_decls f) ++ occs (earlier ++ file_decls f) fs'
  end.
Definition oc_macros (o : occurrence) := visible macro_def (oc_earlier o) (oc_pre o) (oc_whole o).
Definition oc_lists (o : occurrence) := visible list_def (oc_earlier o) (oc_pre o) (oc_whole o).
Fixpoint rule_occs (os : list occurrence) : list (occurrence * ruledecl) :=
  match os with
  | [] => []
  | o :: os' => match oc_decl o with DRule d => (o, d) :: rule_occs os' | _ => rule_occs os' end
  end.
Fixpoint filter_occs (os : list occurrence) : list (occurrence * filterdecl) :=
  match os with
  | [] => []
  | o :: os' => match oc_decl o with DFilter d => (o, d) :: filter_occs os' | _ => filter_occs os' end
  end.

(** ** What a data source must satisfy for [A] to describe record [r]. *)
Section Models.
Context {R : Type}.
Variable ops : operations R.
Definition models (r : R) (A : atomic) : Prop :=
  (forall a c, op_exists ops a = Ok (c, false) -> (c r = true <-> a_exists A a)) /\
  (forall l rr op c, op_compare ops l rr op = Ok (c, false) -> (c r = true <-> a_cmp A l op rr)) /\
  (forall l ys op c, op_foldany ops l ys op = Ok (c, false) -> (c r = true <-> a_any A l op ys)).
(** No operation called on operands satisfying [P] fails or panics. *)
Definition ops_total (P : string -> Prop) : Prop :=
  (forall a, P a -> exists c, op_exists ops a = Ok (c, false)) /\
  (forall l r op, P l -> P r -> exists c, op_compare ops l r op = Ok (c, false)) /\
  (forall l ys op, P l -> op = OpEq \/ op = OpContains -> exists c, op_foldany ops l ys op = Ok (c, false)).
End Models.

(** Definitions that do not refer to themselves, directly or indirectly: each reference to
    a defined name goes to a smaller rank. *)
Definition acyclic {V} (defs : string -> option V) (refs : V -> list string) : Prop :=
  exists rank : string -> nat,
    forall x v y, defs x = Some v -> In y (refs v) -> defs y <> None -> rank y < rank x.

(** The first option of a kind. *)
Definition first_such (p : ropt -> Prop) (l : list ropt) (o : ropt) : Prop :=
  exists pre post, l = pre ++ o :: post /\ p o /\ forall o', In o' pre -> ~ p o'.
Definition is_enabled_opt (o : ropt) : Prop := exists s, o = OEnabled s.
Definition is_priority_opt (o : ropt) : Prop := exists s, o = OPriority s.
Definition false_words := ["0"; "f"; "F"; "FALSE"; "false"; "False"].
Definition off_word (s : string) : Prop := In (trim_bounding_quotes s) false_words.

(** The environment of every occurrence is free of inline list literals (C16 covers those). *)
Definition decl_plain (d : decl) : bool :=
  match d with
  | DRule d => expr_plain (rd_cond d) | DFilter d => expr_plain (fd_cond d)
  | DMacro _ e _ => expr_plain e | _ => true
  end.
Definition decl_operands (d : decl) : list string :=
  match d with
  | DRule d => expr_operands (rd_cond d) | DFilter d => expr_operands (fd_cond d)
  | DMacro _ e _ => expr_operands e | _ => []
  end.
Definition files_operands (P : string -> Prop) (fs : list file) : Prop :=
  forall f d a, In f fs -> In d (file_decls f) -> In a (decl_operands d) -> P a.
Definition files_plain (fs : list file) : Prop := forall f d, In f fs -> In d (file_decls f) -> decl_plain d = true.
(** A file that was opened and parsed without errors. *)
Definition file_good (f : file) : Prop := exists ds, f = Some (ds, false).

(** The priority word table of the documentation (docs/POLICIES.md:11), most severe first. *)
Definition high_words := ["high"; "emergency"; "critical"; "error"].
Definition medium_words := ["medium"; "warning"].

(** A non-empty item list without trailing comma whose items hold no comma. *)
Definition clean_items (it : items) : Prop := it_trail it = false /\ it_atoms it <> [] /\ Forall comma_free (it_atoms it).
(** [l] are the items of the first option of kind [k], without quotes; empty if there is none. *)
Definition listed (k : items -> ropt) (opts : list ropt) (l : list string) : Prop :=
  (forall it, first_such (fun o => exists it', o = k it') opts (k it) -> clean_items it ->
     l = map trim_bounding_quotes (it_atoms it)) /\
  ((forall it, ~ In (k it) opts) -> l = []).

Section RuleOf.
Context {R : Type}.
Variable ops : operations R.
(** [r] is what declaration [d], standing at [o], means. *)
Definition rule_of (od : occurrence * ruledecl) (r : rule R) : Prop :=
  let (o, d) := od in
  r_name r = rd_name d /\ r_desc r = rd_desc d /\
  (r_enabled r = false <-> exists s, first_such is_enabled_opt (rd_opts d) (OEnabled s) /\ off_word s) /\
  (forall s, first_such is_priority_opt (rd_opts d) (OPriority s) ->
     (r_prio r = PHigh <-> In (to_lower s) high_words) /\
     (r_prio r = PMedium <-> In (to_lower s) medium_words) /\
     (r_prio r = PHigh \/ r_prio r = PMedium \/ r_prio r = PLow)) /\
  ((forall o', In o' (rd_opts d) -> ~ is_priority_opt o') -> r_prio r = PLow) /\
  listed OActions (rd_opts d) (r_actions r) /\
  listed OPrefilter (rd_opts d) (r_prefilter r) /\
  (exists ts, listed OTags (rd_opts d) ts /\ (r_tags r = [] /\ ts = [] \/ r_tags r = [TagList ts])) /\
  forall rec A, models ops rec A -> ev (oc_macros o) (oc_lists o) A (rd_cond d) (c_eval (r_cond r) rec).
Definition filter_of (od : occurrence * filterdecl) (f : filter R) : Prop :=
  let (o, d) := od in
  f_name f = fd_name d /\
  (f_enabled f = false <-> exists s, fd_enabled d = Some s /\ off_word s) /\
  forall rec A, models ops rec A -> ev (oc_macros o) (oc_lists o) A (fd_cond d) (c_eval (f_cond f) rec).
End RuleOf.

(** The severity word "alert", in any case. *)
Definition ci_alert (s : string) : bool := seqb (to_lower s) "alert".
