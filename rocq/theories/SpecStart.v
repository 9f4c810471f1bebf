(** * SpecStart: which pipelines are wired correctly; whose handler a stage gets. *)
From Verif Require Import GoBase PluginModel SpecPlugin StartModel.
Local Open Scope nat_scope.

(** ** Wiring *)
(** What a stage of built-in plugins says: processor, input and output channels (identifier, type). *)
Record wiring := mkWiring { wi_kind : pkind; wi_ins : list (string * string); wi_outs : list (string * string) }.
Definition names_kind (name : string) (k : pkind) : Prop :=
  (name = "sysflowreader" /\ k = KReader) \/ (name = "sysflowprocessor" /\ k = KProcessor) \/
  (name = "policyengine" /\ k = KEngine) \/ (name = "exporter" /\ k = KExporter).
Definition mentions (v : pval) (l : list (string * string)) : Prop :=
  Forall2 (fun r m => exists req, r = VStr req /\ asks req (fst m) (snd m)) (requests v) l.
Definition says (c : conf) (d : wiring) : Prop :=
  (exists name, mget "processor" c = Some (VStr name) /\ names_kind name (wi_kind d)) /\
  (exists v, mget "in" c = Some v /\ mentions v (wi_ins d)) /\
  match mget "out" c with Some v => mentions v (wi_outs d) | None => wi_outs d = [] end.
(** The types of records that travel on the channels of the built-in types. *)
Definition carries (b : variant) (ty : string) (t : gtype) : Prop :=
  (ty = "sysflowchan" /\ t = GSysFlow) \/ (ty = "ctxchan" /\ t = GCtx) \/ (ty = "eventchan" /\ t = match b with VFlat => GEvent | VOtel => GLogs end) \/
  (ty = "otelchan" /\ t = GLogs) \/ (ty = "flattenerchan" /\ t = GFlat).
(** The records a stage takes, and those it produces (the exporter: none, it ignores its outputs). *)
Definition takes (b : variant) (k : pkind) (t : gtype) : Prop :=
  match k with
  | KReader => t = GSysFlow | KProcessor => t = GCtx | KEngine => t = match b with VFlat => GFlat | VOtel => GLogs end
  | KExporter => t = match b with VFlat => GEvent | VOtel => GLogs end | KUser _ => False
  end.
Definition gives (b : variant) (k : pkind) (t : gtype) : Prop :=
  match k with KReader | KProcessor => t = GFlat | KEngine => t = match b with VFlat => GEvent | VOtel => GLogs end | KExporter => True | KUser _ => False end.
Definition has_handler (k : pkind) : Prop := k = KReader \/ k = KProcessor.
(** The channel [id], as mentioned up to the stages [ds]: the first mention counts, and a channel of
    type flattenerchan can only be made once a reader or processor has started. *)
Definition all_mentions (ds : list wiring) : list (string * string) := flat_map (fun d => wi_ins d ++ wi_outs d) ds.
Definition channel_type (b : variant) (ds : list wiring) (id : string) (t : gtype) : Prop :=
  exists ds1 d ds2 l1 ty l2, ds = ds1 ++ d :: ds2 /\ wi_ins d ++ wi_outs d = l1 ++ (id, ty) :: l2 /\
    (forall ty', ~ In (id, ty') (all_mentions ds1 ++ l1)) /\ carries b ty t /\
    (ty = "flattenerchan" -> exists d', In d' (ds1 ++ [d]) /\ has_handler (wi_kind d')).
(** Every channel that is mentioned can be made and carries the records of the stages it joins. *)
Definition well_wired (b : variant) (ds : list wiring) : Prop :=
  forall d, In d ds ->
    (forall id ty, In (id, ty) (wi_ins d) -> exists t, channel_type b ds id t /\ (length (wi_ins d) = 1 -> takes b (wi_kind d) t)) /\
    (forall id ty, In (id, ty) (wi_outs d) -> exists t, channel_type b ds id t /\ gives b (wi_kind d) t).
(** The other settings are in order: readers and processors use the flattener, engines and exporters initialize. *)
Definition settings_ok (p_init : pkind -> conf -> bool) (c : conf) (d : wiring) : Prop :=
  match wi_kind d with
  | KReader | KProcessor => mget "handler" c = Some (VStr "flattener")
  | k => p_init k c = true
  end.
(** What is started for a stage: its kind, and channels in the number and of the types it mentions. *)
Definition starts_as (b : variant) (ds : list wiring) (d : wiring) (g : started) : Prop :=
  st_kind g = wi_kind d /\ Forall2 (fun m ch => channel_type b ds (fst m) (tc_type ch)) (wi_ins d) (st_ins g) /\
  Forall2 (fun m ch => channel_type b ds (fst m) (tc_type ch)) (wi_outs d) (st_outs g).

(** ** Handlers *)
(** The last entry for [name]. *)
Definition last_said {A} (l : list (string * A)) (name : string) (v : A) : Prop :=
  exists l1 l2, l = l1 ++ (name, v) :: l2 /\ forall v', ~ In (name, v') l2.
Section H.
Variable hlibs : string -> libfile hlib.
(** The names registered so far: the flattener's, and those the libraries loaded for earlier requests registered. *)
Definition registers (o : option hobj) : list (string * hfac) :=
  match o with Some (HLib file _) => match hlibs file with LGood l => hl_handlers l | _ => [] end | _ => [] end.
Definition known (prev : list (option hobj)) : list (string * hfac) := ("flattener", HFactory HFlattener) :: flat_map registers prev.
Definition is_new (o : option hobj) : bool := match o with Some (HNew _ _) => true | _ => false end.
(** The answer to a request, given the earlier answers: a new handler of the kind registered under the
    name; else the handler of the library <path>/<name>.so; else none. *)
Definition answers (prev : list (option hobj)) (c : conf) (o : option hobj) : Prop :=
  match o with
  | Some (HNew n k) => n = length (List.filter is_new prev) /\ exists name, mget "handler" c = Some (VStr name) /\ last_said (known prev) name (HFactory k)
  | Some (HLib file k) => exists name path l, mget "handler" c = Some (VStr name) /\ (forall f, ~ In (name, f) (known prev)) /\
      mget "handlerlibpath" c = Some (VStr path) /\ file = (path ++ "/" ++ name ++ ".so")%string /\ hlibs file = LGood l /\ k = hl_kind l
  | None => forall name, mget "handler" c = Some (VStr name) ->
      (forall f, ~ In (name, f) (known prev)) /\ (forall path l, mget "handlerlibpath" c = Some (VStr path) -> hlibs (path ++ "/" ++ name ++ ".so")%string <> LGood l)
  end.
End H.

(** ** Processors *)
Section P.
Variable plibs : string -> libfile plib.
Variable dir : string.
(** The processors asked for by name, one stage after the other, [reg] being the names registered so far:
    the kind last registered under the name; if there is none, the library <dir>/<name>.so is loaded and
    registers its processors. *)
Inductive resolves : list (string * pfac) -> list string -> list pkind -> Prop :=
| R_end : forall reg, resolves reg [] []
| R_known : forall reg name k names ks, last_said reg name (PFactory k) -> resolves reg names ks -> resolves reg (name :: names) (k :: ks)
| R_library : forall reg name l k names ks, (forall f, ~ In (name, f) reg) -> plibs (dir ++ "/" ++ name ++ ".so")%string = LGood l ->
    last_said (pl_procs l) name (PFactory k) -> resolves (reg ++ pl_procs l) names ks -> resolves reg (name :: names) (k :: ks).
End P.
Definition own_processors : list (string * pfac) :=
  [("sysflowreader", PFactory KReader); ("sysflowprocessor", PFactory KProcessor); ("policyengine", PFactory KEngine); ("exporter", PFactory KExporter)].

(** ** One process, several pipelines *)
Section Many.
Variable b : variant.
Variable plibs : string -> libfile plib.
Variable hlibs : string -> libfile hlib.
Variable h_init : hkind -> conf -> bool.
Variable p_init : pkind -> conf -> bool.
Variable h_accepts p_accepts : nat -> gtype -> bool.
(** The state of a process that has made and loaded [n] pipelines, with or without an error. *)
Inductive after_loads : nat -> world -> Prop :=
| L_start : after_loads 0 fresh_world
| L_load : forall n w dir p w' sgs err, after_loads n w ->
    load_all b plibs hlibs h_init p_init h_accepts p_accepts n dir (new_pipeline b w) p = Ok (w', sgs, err) -> after_loads (S n) w'.
End Many.
(** The channel types a process knows by itself (the flattener's is added when the first handler is asked for). *)
Definition own_types (b : variant) : list (string * cfac) :=
  [("sysflowchan", CFactory GSysFlow); ("ctxchan", CFactory GCtx); ("eventchan", CFactory (match b with VFlat => GEvent | VOtel => GLogs end)); ("otelchan", CFactory GLogs)].
