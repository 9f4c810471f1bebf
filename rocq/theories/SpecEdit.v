(** * SpecEdit: edits of a policy, and what a record is told. *)
From Coq Require Import Permutation.
From Verif Require Import GoBase Predicates FlatRecord FalcoModel SpecFalco SigmaModel EngineModel EngineFlat SpecEngine SpecEngineFlat PoolModel SpecPool PoolFacts4 MonitorModel SpecMonitor SpecLexer InitModel SpecInit.

(** The policy files under [d] have exactly this reading: their declarations, file by file. *)
Definition says (h : host) (d : string) (dss : list (list decl)) : Prop :=
  let reading x := exists texts, texts_of h d texts /\ Forall2 text_reads texts x in
  reading dss /\ forall dss', reading dss' -> dss' = dss.

(** What the output for record [r] tells: nothing ([None]: the record does not leave), or the rules
    (name, description, priority) added to those the record came with. *)
Definition info (m : rmeta) : string * string * priority := (m_name m, m_desc m, m_prio m).
Definition told (r : sfrec) (o : list sfrec) : option (list (string * string * priority)) :=
  match o with
  | [] => None
  | r' :: _ => Some (map info (skipn (length (ctx_getrules (snd r))) (ctx_getrules (snd r'))))
  end.

(** [x] is put somewhere into a file; it is then the occurrence [o]. *)
Inductive inserted (x : decl) (o : occurrence) : list (list decl) -> list (list decl) -> Prop :=
| inserted_in A B C E : o = mkOcc (concat A) B (B ++ x :: C) x -> inserted x o (A ++ (B ++ C) :: E) (A ++ (B ++ x :: C) :: E).
(** Two neighbours [x] and [y], the occurrences [ox] and [oy], change places. *)
Inductive swapped (x : decl) (ox : occurrence) (y : decl) (oy : occurrence) : list (list decl) -> list (list decl) -> Prop :=
| swapped_in A B C E : ox = mkOcc (concat A) B (B ++ x :: y :: C) x -> oy = mkOcc (concat A) (B ++ [x]) (B ++ x :: y :: C) y ->
    swapped x ox y oy (A ++ (B ++ x :: y :: C) :: E) (A ++ (B ++ y :: x :: C) :: E).
(** [x], the occurrence [o], is replaced by [y]. *)
Inductive replaced (x : decl) (o : occurrence) (y : decl) : list (list decl) -> list (list decl) -> Prop :=
| replaced_in A B C E : o = mkOcc (concat A) B (B ++ x :: C) x -> replaced x o y (A ++ (B ++ x :: C) :: E) (A ++ (B ++ y :: C) :: E).

(** Rules and filters define no names. *)
Definition defines_nothing (x : decl) : Prop := match x with DMacro _ _ _ | DList _ _ => False | _ => True end.

(** The names a declaration mentions: macros, and list names or items of in and pmatch. *)
Definition arg_names (a : listarg) : list string := match a with LAtom x => [x] | LItems it => it_atoms it end.
Fixpoint term_items (t : term) : list string :=
  match t with
  | TNot t' => term_items t'
  | TIn _ args | TPmatch _ args => concat (map arg_names args)
  | TParen e => concat (map (fun c => concat (map term_items c)) e)
  | _ => []
  end.
Definition expr_items (e : expr) : list string := concat (map (fun c => concat (map term_items c)) e).
Definition uses_macro (n : string) (d : decl) : Prop :=
  match d with
  | DRule r => In n (expr_refs (rd_cond r)) | DFilter f => In n (expr_refs (fd_cond f)) | DMacro _ e _ => In n (expr_refs e) | _ => False
  end.
Definition uses_list (n : string) (d : decl) : Prop :=
  match d with
  | DRule r => In n (expr_items (rd_cond r)) | DFilter f => In n (expr_items (fd_cond f)) | DMacro _ e _ => In n (expr_items e)
  | DList _ it => In n (extract_items it) | _ => False
  end.
(** A definition nothing in the policy uses (or a required engine version, which nothing can use). *)
Definition unused (x : decl) (dss : list (list decl)) : Prop :=
  match x with
  | DMacro n _ _ => forall ds d, In ds dss -> In d ds -> ~ uses_macro n d
  | DList n _ => forall ds d, In ds dss -> In d ds -> ~ uses_list n d
  | DReq _ => True
  | _ => False
  end.

(** Some uses of macros are replaced by the macros' conditions in parentheses. *)
Inductive inlined (macros : string -> option expr) : term -> term -> Prop :=
| il_same t : inlined macros t t
| il_here x e : macros x = Some e -> inlined macros (TVar x) (TParen e)
| il_not t t' : inlined macros t t' -> inlined macros (TNot t) (TNot t')
| il_paren e e' : inlined_e macros e e' -> inlined macros (TParen e) (TParen e')
with inlined_e (macros : string -> option expr) : expr -> expr -> Prop :=
| ile_nil : inlined_e macros [] []
| ile_cons c c' e e' : inlined_c macros c c' -> inlined_e macros e e' -> inlined_e macros (c :: e) (c' :: e')
with inlined_c (macros : string -> option expr) : list term -> list term -> Prop :=
| ilc_nil : inlined_c macros [] []
| ilc_cons t t' c c' : inlined macros t t' -> inlined_c macros c c' -> inlined_c macros (t :: c) (t' :: c').
(** The same declaration with macros of its condition inlined. *)
Inductive inlined_in (o : occurrence) : decl -> decl -> Prop :=
| ili_rule n ds e e' opts : inlined_e (oc_macros o) e e' -> inlined_in o (DRule (mkRuleDecl n ds e opts)) (DRule (mkRuleDecl n ds e' opts))
| ili_filter n e e' en : inlined_e (oc_macros o) e e' -> inlined_in o (DFilter (mkFilterDecl n e en)) (DFilter (mkFilterDecl n e' en)).

(** ** Comparing two policies
    [E] holds, for every record, of what the record is told under the policy files of [h] and what it
    is told under those of [h']: record by record through the engine's work ... *)
Definition verdict : Type := option (list (string * string * priority)).
Section Compare.
Variable X : sfgo_fns.
Variable M : gomap fieldmap.
Variable pmatch : string -> string -> bool.
Variable ord : srule -> list nat -> list (string * search).
Variable n : nat.
Definition compared (h h' : host) (conf : gomap cval) (ah : ahandler sfrec) (E : mode -> flatrec -> verdict -> verdict -> Prop) : Prop :=
  forall p p' m,
  create_interpreter (sf_ops X M) pmatch ord n h (fst (create_config conf)) = Ok (Some p) ->
  create_interpreter (sf_ops X M) pmatch ord n h' (fst (create_config conf)) = Ok (Some p') ->
  forall r, E m (fst r) (told r (outs (snd (sf_work X M ah m (fst p) (snd p) r)))) (told r (outs (snd (sf_work X M ah m (fst p') (snd p') r)))).
(** ... and for whole runs of the plugin over the same records: on each output channel, everything
    received is the records' outputs [os] (resp. [os']), at most one per record and with its data. *)
Definition compared_runs (h h' : host) (conf : gomap cval) (ah : ahandler sfrec) (E : mode -> flatrec -> verdict -> verdict -> Prop) : Prop :=
  forall m outCh rd rd' cs cs' s s' tr tr',
  monitor_is conf NoneType -> mode_is conf m -> NoDup outCh ->
  init (sf_ops X M) pmatch ord n h conf = Ok (Some rd) ->
  init (sf_ops X M) pmatch ord n h' conf = Ok (Some rd') ->
  run (engine_proc (sf_applicable X M) sf_add ah m) (Z.to_nat (c_concurrency (rd_conf rd))) outCh (pool_start rd) cs = (s, tr) -> finished s ->
  run (engine_proc (sf_applicable X M) sf_add ah m) (Z.to_nat (c_concurrency (rd_conf rd'))) outCh (pool_start rd') cs' = (s', tr') -> finished s' ->
  taken tr = taken tr' ->
  forall c, In c outCh -> exists l,
    map (fun x => fst x) l = taken tr /\
    Permutation (emitted c tr) (concat (map (fun x => fst (snd x)) l)) /\
    Permutation (emitted c tr') (concat (map (fun x => snd (snd x)) l)) /\
    forall r o o', In (r, (o, o')) l ->
      length o <= 1 /\ length o' <= 1 /\ (forall q, In q o \/ In q o' -> fst q = fst r) /\ E m (fst r) (told r o) (told r o').
End Compare.

(** ** The effects of edits *)
Section Effects.
Variable X : sfgo_fns.
Variable M : gomap fieldmap.
Variable typ : flatrec -> string.
Definition no_effect (m : mode) (fr : flatrec) (v v' : verdict) : Prop := v' = v.
Definition filtered (D : list (list decl)) (fr : flatrec) : Prop := exists od, In od (filter_occs (declared D)) /\ filter_fires X M fr od.
(** A new rule: a record a filter takes stays away.  Any other that the rule does not fire on notices
    nothing, and one it fires on is told of the rule, at the rule's place among those it was told of before. *)
Definition rule_added (D : list (list decl)) (o : occurrence) (d : ruledecl) (m : mode) (fr : flatrec) (v v' : verdict) : Prop :=
  (filtered D fr /\ v = None /\ v' = None) \/
  (~ filtered D fr /\ ~ decl_fires X M typ fr (o, d) /\ v' = v) \/
  (~ filtered D fr /\ decl_fires X M typ fr (o, d) /\
     exists a b mt, marked (o, d) mt /\ v' = Some (a ++ info mt :: b) /\
       (v = Some (a ++ b) \/ m = AlertMode /\ a = [] /\ b = [] /\ v = None)).
(** A new filter takes exactly the records it fires on, besides those taken before. *)
Definition filter_added (D : list (list decl)) (o : occurrence) (d : filterdecl) (m : mode) (fr : flatrec) (v v' : verdict) : Prop :=
  (filtered D fr /\ v = None /\ v' = None) \/
  (~ filtered D fr /\ ~ filter_fires X M fr (o, d) /\ v' = v) \/
  (~ filtered D fr /\ filter_fires X M fr (o, d) /\ v' = None).
(** Rules that change places: a record both fire on, and that no filter takes, is told of them in the
    other order; every other record notices nothing. *)
Definition exchanged (D : list (list decl)) (ox : occurrence) (dx : ruledecl) (oy : occurrence) (dy : ruledecl) (m : mode) (fr : flatrec) (v v' : verdict) : Prop :=
  let both := decl_fires X M typ fr (ox, dx) /\ decl_fires X M typ fr (oy, dy) in
  (filtered D fr /\ v = None /\ v' = None) \/
  (~ filtered D fr /\ ~ both /\ v' = v) \/
  (~ filtered D fr /\ both /\ exists a mx my b, marked (ox, dx) mx /\ marked (oy, dy) my /\
     v = Some (a ++ info mx :: info my :: b) /\ v' = Some (a ++ info my :: info mx :: b)).
End Effects.
