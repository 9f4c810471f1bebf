(** * Properties C43-C45: the OpenTelemetry source. *)
From Verif Require Import GoBase Predicates SpecStrings OtelModel SpecOtel OtelFacts.

Section P.
Variable D : Type.
Variable parse_float : string -> option D.
Variables deq dlt dle : D -> D -> bool.
Notation o_compare := (o_compare D parse_float deq dlt dle).
Notation o_foldany := (o_foldany D parse_float deq dlt dle).
Notation o_foldall := (o_foldall D parse_float deq dlt dle).
Notation any_rel := (any_rel D parse_float deq dlt dle).
Notation decides := (decides D).
Notation crashes := (crashes D).

(** C43.  On a log with a resource, an existence test holds iff some attribute has the key. *)
Theorem C43_exists :
  forall attr r a, l_resource D r = Some a ->
  exists b, o_exists D attr r = Ok b /\ (b = true <-> exists v, In (attr, v) (attributes D a (l_scopes D r))).
Proof. exact (exists_spec D). Qed.
(** A comparison is decided by the first attribute of the key: it holds iff the deciding value
    stands in the named relation to the operand, and crashes exactly on the listed values. *)
Theorem C43_compare :
  forall lattr rattr op r a, l_resource D r = Some a ->
  let o := o_compare lattr rattr op r in let l := attributes D a (l_scopes D r) in
  (o = Panic <-> exists v, decides lattr l v /\ crashes op v) /\
  (forall b, o = Ok b -> (b = true <-> exists v, decides lattr l v /\ any_rel op v rattr)) /\
  (o = Panic \/ exists b, o = Ok b).
Proof. exact (compare_spec D parse_float deq dlt dle). Qed.
Theorem C43_decides_unique : forall k l v, decides k l v -> forall w, decides k l w -> v = w.
Proof. exact (decides_fun D parse_float). Qed.
Theorem C43_foldany :
  forall attr l op r a, l_resource D r = Some a ->
  (forall v, decides attr (attributes D a (l_scopes D r)) v -> ~ crashes op v) ->
  exists b, o_foldany attr l op r = Ok b /\
    (b = true <-> exists x v, In x l /\ decides attr (attributes D a (l_scopes D r)) v /\ any_rel op v x).
Proof. exact (foldany_spec D parse_float deq dlt dle). Qed.
Theorem C43_foldall :
  forall attr l op r a, l_resource D r = Some a ->
  (forall v, decides attr (attributes D a (l_scopes D r)) v -> ~ crashes op v) ->
  exists b, o_foldall attr l op r = Ok b /\
    (b = true <-> forall x, In x l -> exists v, decides attr (attributes D a (l_scopes D r)) v /\ any_rel op v x).
Proof. exact (foldall_spec D parse_float deq dlt dle). Qed.
(** A pattern test is decided by the first attribute of the key (key-value lists are not searched):
    it holds iff the value is a string in which the expression finds a match that is not empty, and
    crashes iff the attribute has no value. *)
Theorem C43_regexp :
  forall find attr r a, l_resource D r = Some a ->
  let o := o_regexp D find attr r in let l := attributes D a (l_scopes D r) in
  (o = Panic <-> first_value D attr l (ANil D)) /\
  (forall b, o = Ok b -> (b = true <-> exists s, first_value D attr l (AStr D s) /\ find s <> "")) /\
  (o = Panic \/ exists b, o = Ok b).
Proof. exact (regexp_spec D). Qed.
(** C55.  Evaluation on arbitrary logs does not crash: false.  A log without resource, an attribute
    without value, and a prefix or suffix test on an empty array crash every comparison that
    reaches them. *)
Theorem C55_total_refuted :
  forall k r op scopes a,
  o_compare k r op (mkLogs D None scopes) = Panic /\ o_exists D k (mkLogs D None scopes) = Panic /\
  o_compare k r op (mkLogs D (Some ((k, ANil D) :: a)) scopes) = Panic /\
  o_compare k r OpStartswith (mkLogs D (Some ((k, AArr D (Some [])) :: a)) scopes) = Panic.
Proof.
  intros k r op scopes a. split; [reflexivity|]. split; [reflexivity|].
  split.
  - apply (proj1 (compare_spec D parse_float deq dlt dle k r op (mkLogs D (Some ((k, ANil D) :: a)) scopes) _ eq_refl)). exists (ANil D). split; [apply D_leaf; exact Logic.I|exact Logic.I].
  - apply (proj1 (compare_spec D parse_float deq dlt dle k r OpStartswith (mkLogs D (Some ((k, AArr D (Some [])) :: a)) scopes) _ eq_refl)). exists (AArr D (Some [])). split; [apply D_leaf; exact Logic.I|exact Logic.I].
Qed.

(** C44.  A Boolean attribute compared with a word for true, or with the word False, holds iff they
    agree. *)
Theorem C44_bool_partial :
  forall b v k r, says r b /\ (b = true \/ r = "False") ->
  compare_helper D parse_float deq dlt dle k r OpEq [(k, ABool D v)] = Ok (Bool.eqb v b).
Proof. exact (bool_partial D parse_float deq dlt dle). Qed.
(** With any other word for false the answer is inverted. *)
Theorem C44_bool_refuted :
  forall b r, says r b -> r <> "False" -> b = false -> exists op, op = OpEq /\
  (forall k, compare_helper D parse_float deq dlt dle k r op [(k, ABool D false)] = Ok false) /\
  (forall k, compare_helper D parse_float deq dlt dle k r op [(k, ABool D true)] = Ok true).
Proof. exact (bool_words D parse_float deq dlt dle). Qed.

(** C45.  Any number of annotations of a log that had none leaves the resource and all scopes as
    they were and adds one scope of the processor with the names of all rules in order, and, call
    by call, their tags. *)
Theorem C45_annotations :
  forall h res scopes, Forall (foreign D) scopes -> h <> [] ->
  annotations D h (mkLogs D res scopes) = Ok (mkLogs D res (scopes ++ [own D (names h) (tags h)])).
Proof. exact (annotations_spec D parse_float). Qed.
(** The tags of one call are those of its rules, each once. *)
Theorem C45_tags :
  forall rules t, In t (tag_set rules) <-> exists r tg, In r rules /\ In tg (snd r) /\ In t (tag_strings tg).
Proof. exact tag_set_spec. Qed.
Theorem C45_tags_once : forall rules, NoDup (tag_set rules).
Proof. exact tag_set_nodup. Qed.
(** On any log, an annotation that does not crash changes at most the processor's scope, and there
    at most the attributes for rules and tags. *)
Theorem C45_frame :
  forall enum rules r r', o_addrules D enum rules r = Ok r' ->
  l_resource D r' = l_resource D r /\
  exists pre sl post, (l_scopes D r' = pre ++ sl :: post) /\ Forall (foreign D) pre /\
    ((l_scopes D r = pre /\ post = [] /\ sl_records D sl = []) \/
     exists sl0 s0, l_scopes D r = pre ++ sl0 :: post /\ sl_scope D sl0 = Some s0 /\ sc_name D s0 = "sf-processor" /\ sl_records D sl = sl_records D sl0 /\
       forall s, sl_scope D sl = Some s -> others D (sc_attrs D s) = others D (sc_attrs D s0)) /\
    exists s, sl_scope D sl = Some s /\ sc_name D s = "sf-processor".
Proof. exact (addrules_frame D parse_float). Qed.
End P.
Print Assumptions C43_exists. Print Assumptions C43_compare. Print Assumptions C43_decides_unique.
Print Assumptions C43_regexp. Print Assumptions C43_foldany. Print Assumptions C43_foldall. Print Assumptions C55_total_refuted.
Print Assumptions C44_bool_partial. Print Assumptions C44_bool_refuted.
Print Assumptions C45_annotations. Print Assumptions C45_tags. Print Assumptions C45_tags_once. Print Assumptions C45_frame.

(** Doubles are abstract; the examples use integers for them. *)
Definition exO_log : logs Z :=
  mkLogs Z (Some [("host", AStr Z "h1"); ("ctx", AUnset Z)])
    [mkSL Z (Some (mkScope Z "lib" [("ctx", AKv Z (Some [("x", AInt Z 1); ("ctx", AInt Z 42)]))])) [[("ctx", AStr Z "late")]; [("body", AArr Z (Some [EStr "a"; EOther 3; EStr "b/c"]))]]].
Example ex_decides : decides Z "ctx" (attributes Z [("host", AStr Z "h1"); ("ctx", AUnset Z)] (l_scopes Z exO_log)) (AInt Z 42).
Proof. cbn. apply D_other; [discriminate|]. apply D_unset. apply D_nested. apply D_other; [discriminate|]. apply D_leaf. exact Logic.I. Qed.
Example ex_compare :
  map (fun x => o_compare Z (fun _ => None) Z.eqb Z.ltb Z.leb (fst (fst x)) (snd (fst x)) (snd x) exO_log)
    [("ctx", " 42 ", OpEq); ("ctx", "late", OpEq); ("ctx", "41", OpGt); ("body", "/c", OpContains); ("body", "a", OpStartswith); ("host", "H1", OpIEq); ("host", "h", OpGt); ("none", "x", OpEq)]
  = [Ok true; Ok false; Ok true; Ok true; Ok true; Ok true; Ok true; Ok false].
Proof. vm_compute. reflexivity. Qed.
Example ex_regexp :
  let find := fun s => if contains s "1" then "1" else "" in
  map (fun k => o_regexp Z find k exO_log) ["host"; "ctx"; "none"; "body"] = [Ok true; Ok false; Ok false; Ok false].
Proof. vm_compute. reflexivity. Qed.
Example ex_first : first_value Z "host" (attributes Z [("host", AStr Z "h1"); ("ctx", AUnset Z)] (l_scopes Z exO_log)) (AStr Z "h1").
Proof. eexists [], _. split; [reflexivity|]. intros w []. Qed.
Example ex_says : says "false" false /\ says "true" true /\ says "False" false.
Proof. repeat split. Qed.
Example ex_annotations :
  annotations Z [(fun l => rev l, [("r1", [TagStr "t"; TagList ["u"; "t"]]); ("r2", [TagStr "v"])]); (fun l => l, [("r3", [TagStr "t"])])] (mkLogs Z (Some []) [mkSL Z None []])
  = Ok (mkLogs Z (Some []) [mkSL Z None []; own Z ["r1"; "r2"; "r3"] ["v"; "t"; "u"; "t"]]).
Proof. vm_compute. reflexivity. Qed.
