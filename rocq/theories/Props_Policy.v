(** * Properties C01-C09, C47, C48: predicates, operators, flatrecord operations, annotations. *)
From Verif Require Import GoBase GoFacts Predicates SpecStrings FlatRecord SpecContext FieldTables Samples PolicyFacts PolicyFacts2.

(** C01.  And, Or, Not, All and Any of criteria are the Boolean connectives, on every record. *)
Theorem C01_criteria_boolean_algebra :
  forall (R : Type) (c d : criterion R) (cs : list (criterion R)) (r : R),
  (c_eval (c_and c d) r = true <-> c_eval c r = true /\ c_eval d r = true) /\
  (c_eval (c_or c d) r = true <-> c_eval c r = true \/ c_eval d r = true) /\
  (c_eval (c_not c) r = true <-> ~ c_eval c r = true) /\
  (c_eval (c_all cs) r = true <-> Forall (fun k => c_eval k r = true) cs) /\
  (c_eval (c_any cs) r = true <-> Exists (fun k => c_eval k r = true) cs) /\
  c_eval c_true r = true /\ c_eval c_false r = false.
Proof. exact @criteria_algebra. Qed.
Print Assumptions C01_criteria_boolean_algebra.
Example C01_case : c_eval (c_and (c_not c_false) (c_any [c_false; Nat.eqb 3])) 3 = true
                /\ c_eval (c_all [c_true; Nat.eqb 3]) 4 = false
                /\ c_eval (c_all []) 4 = true /\ c_eval (c_any []) 4 = false.
Proof. repeat split. Qed.

(** C02.  Every string operator decides the relation of its name. *)
Theorem C02_string_operators :
  forall op o, str_op op = Some o -> forall l r, o l r = true <-> str_rel op l r.
Proof. exact str_op_rel. Qed.
Print Assumptions C02_string_operators.
(** ... and exactly the eight string operators are defined on strings. *)
Theorem C02_string_operators_defined :
  forall op, is_str_op op = true <-> exists o, str_op op = Some o.
Proof. exact str_op_defined. Qed.
Print Assumptions C02_string_operators_defined.
Example C02_case : exists o, str_op OpIEndswith = Some o /\ o "/bin/BASH" "bash" = true /\ o "bash" "/bin/BASH" = false.
Proof. eexists; repeat split. Qed.

(** C02, slices: slice equality is equality of lists. *)
Theorem C02_slice_equality :
  forall (T : Type) (eqb : T -> T -> bool), (forall a b, eqb a b = true <-> a = b) ->
  forall o, slice_op eqb OpEq = Some o -> forall l r, o l r = true <-> l = r.
Proof. exact @slice_op_rel. Qed.
Print Assumptions C02_slice_equality.
Example C02_slice_case : exists o, slice_op Z.eqb OpEq = Some o /\ o [1;2]%Z [1;2]%Z = true /\ o [1;2]%Z [1]%Z = false.
Proof. eexists; repeat split. Qed.

(** C03.  Numeric operators decide the order on integers, and so partition the cases. *)
Theorem C03_numeric_operators :
  forall op o, int_op op = Some o -> forall l r, o l r = true <-> int_rel op l r.
Proof. exact int_op_rel. Qed.
Print Assumptions C03_numeric_operators.
Theorem C03_numeric_trichotomy :
  forall lt le gt ge eq,
  int_op OpLt = Some lt -> int_op OpLEq = Some le -> int_op OpGt = Some gt -> int_op OpGEq = Some ge ->
  int_op OpEq = Some eq ->
  forall l r,
    le l r = negb (gt l r) /\ ge l r = negb (lt l r) /\
    (lt l r = true /\ eq l r = false /\ gt l r = false \/
     lt l r = false /\ eq l r = true /\ gt l r = false \/
     lt l r = false /\ eq l r = false /\ gt l r = true).
Proof. exact int_trichotomy. Qed.
Print Assumptions C03_numeric_trichotomy.
Example C03_case : exists o, int_op OpGEq = Some o /\ o 5%Z 5%Z = true /\ o 4%Z 5%Z = false.
Proof. eexists; repeat split. Qed.

(** C04.  A string comparison on a record holds iff some component of the left rendering
    is related to some component of the right rendering; without commas it is the relation. *)
Theorem C04_record_string_comparison :
  forall X M l r op ml mr,
  is_str_op op = true -> map_str X M l = Ok ml -> map_str X M r = Ok mr ->
  exists c, fr_compare X M l r op = Ok (c, false) /\
  forall fr,
    (c_eval c fr = true <-> exists a b, component (ml fr) a /\ component (mr fr) b /\ str_rel op a b) /\
    (comma_free (ml fr) -> comma_free (mr fr) -> (c_eval c fr = true <-> str_rel op (ml fr) (mr fr))).
Proof. exact fr_compare_str_spec. Qed.
Print Assumptions C04_record_string_comparison.
(** The four order operators compare the numeric readings. *)
Theorem C04_record_numeric_comparison :
  forall X M l r op,
  is_str_op op = false ->
  exists c, fr_compare X M l r op = Ok (c, false) /\
  forall fr, c_eval c fr = true <-> int_rel op (map_int X M l fr) (map_int X M r fr).
Proof. exact fr_compare_int_spec. Qed.
Print Assumptions C04_record_numeric_comparison.
Example C04_case : exists c, fr_compare X0 mappers "sf.opflags" "WRITE" OpEq = Ok (c, false) /\ c_eval c rec0 = true.
Proof. eexists; split; [reflexivity|]. vm_compute. reflexivity. Qed.
Example C04_case_num : exists c, fr_compare X0 mappers "sf.proc.uid" "500" OpGt = Ok (c, false) /\ c_eval c rec0 = true.
Proof. eexists; split; [reflexivity|]. vm_compute. reflexivity. Qed.

(** C05.  Membership tests range over the whole list. *)
Theorem C05_fold_any_all :
  forall X M attr l op m,
  is_str_op op = true -> map_str X M attr = Ok m ->
  exists ca cl, fr_foldany X M attr l op = Ok (ca, false) /\ fr_foldall X M attr l op = Ok (cl, false) /\
  forall fr,
    let matches v := exists a b, component (m fr) a /\ component v b /\ str_rel op a b in
    (c_eval ca fr = true <-> exists v, In v l /\ matches v) /\
    (c_eval cl fr = true <-> forall v, In v l -> matches v).
Proof. exact fr_fold_spec. Qed.
Print Assumptions C05_fold_any_all.
Example C05_case : exists c, fr_foldany X0 mappers "sf.proc.name" ["zsh"; "Bash"] OpEq = Ok (c, false)
                             /\ c_eval c rec0 = true.
Proof. eexists; split; [reflexivity|]. vm_compute. reflexivity. Qed.

(** C06.  The existence test. *)
Theorem C06_exists :
  forall X M attr,
  exists c, fr_exists X M attr = Ok (c, false) /\
  forall fr,
    (mget attr M = None -> (c_eval c fr = true <-> attr <> "")) /\
    (forall k, mget attr M = Some k ->
       (c_eval c fr = true <->
        match run_fmap X k fr with
        | VStr s => s <> ""
        | VInt z | VInt32 z => z <> 0%Z
        | VBool b => b = true
        | VIntArr o => o <> None
        | VSvcArr o => o <> None
        end)).
Proof. exact fr_exists_spec. Qed.
Print Assumptions C06_exists.
Example C06_case :
  (exists c, fr_exists X0 mappers "sf.container.id" = Ok (c, false) /\ c_eval c rec0 = true) /\
  (exists c, fr_exists X0 mappers "sf.pod.id" = Ok (c, false) /\ c_eval c rec0 = false).
Proof. split; eexists; (split; [reflexivity|]); vm_compute; reflexivity. Qed.

(** C06, regular expressions: holds iff the expression finds a non-empty match; an
    expression that does not compile is an error and gives the false criterion. *)
Theorem C06_regexp :
  forall X M attr re m,
  map_str X M attr = Ok m ->
  match x_regfind X re with
  | Some find => exists c, fr_regexp X M attr re = Ok (c, false) /\
                 forall fr, c_eval c fr = true <-> find (m fr) <> ""
  | None => exists c, fr_regexp X M attr re = Ok (c, true) /\ forall fr, c_eval c fr = false
  end.
Proof. exact fr_regexp_spec. Qed.
Print Assumptions C06_regexp.
Example C06_regexp_case : exists c, fr_regexp X0 mappers "sf.proc.exe" "usr" = Ok (c, false) /\ c_eval c rec0 = true.
Proof. eexists; split; [reflexivity|]. vm_compute. reflexivity. Qed.

(** C07.  Reading an attribute returns the value of the first slot of the requested
    source, or the zero value when no slot has that source. *)
Theorem C07_int_lookup :
  forall sl a src,
  (forall s, In s sl -> sl_src s <> src) /\ get_int sl a src = 0%Z \/
  exists pre s post, sl = pre ++ s :: post /\ (forall s', In s' pre -> sl_src s' <> src) /\
                     sl_src s = src /\ get_int sl a src = sl_ints s a.
Proof. exact get_int_spec. Qed.
Print Assumptions C07_int_lookup.
Theorem C07_str_lookup :
  forall sl a src,
  (forall s, In s sl -> sl_src s <> src) /\ get_str sl a src = "" \/
  exists pre s post, sl = pre ++ s :: post /\ (forall s', In s' pre -> sl_src s' <> src) /\
                     sl_src s = src /\ get_str sl a src = sl_strs s a.
Proof. exact get_str_spec. Qed.
Print Assumptions C07_str_lookup.
Theorem C07_any_lookup :
  forall sl a src,
  (forall s, In s sl -> sl_src s <> src) /\ get_any sl a src = ANil \/
  exists pre s post, sl = pre ++ s :: post /\ (forall s', In s' pre -> sl_src s' <> src) /\
                     sl_src s = src /\ get_any sl a src = sl_anys s a.
Proof. exact get_any_spec. Qed.
Print Assumptions C07_any_lookup.
Example C07_case : get_int (fr_slots rec0) PROC_OID_HPID_INT SYSFLOW_SRC = 17%Z
  /\ get_int (fr_slots rec0) PROC_OID_HPID_INT PROCESS_SRC = 9%Z
  /\ get_int (fr_slots rec0) PROC_OID_HPID_INT NETWORK_SRC = 0%Z.
Proof. repeat split. Qed.

(** C07.  The parent attributes read the second process of the ancestry, the ancestor
    attributes range over all of it. *)
Theorem C07_parent_lookup :
  forall X src fr,
  (forall p0 p ps, fr_ptree fr = Some (p0 :: p :: ps) ->
     run_fmap X (MCached src PProcExe) fr = VStr (p_exe p) /\
     run_fmap X (MCached src PProcArgs) fr = VStr (p_exeargs p) /\
     run_fmap X (MCached src PProcUser) fr = VStr (p_username p) /\
     run_fmap X (MCached src PProcGroup) fr = VStr (p_groupname p) /\
     run_fmap X (MCached src PProcUID) fr = VInt32 (p_uid p) /\
     run_fmap X (MCached src PProcGID) fr = VInt32 (p_gid p) /\
     run_fmap X (MCached src PProcTTY) fr = VBool (p_tty p) /\
     run_fmap X (MCached src PProcEntry) fr = VBool (p_entry p)) /\
  (forall ps, fr_ptree fr = Some ps ->
     run_fmap X (MCached src ProcAExe) fr = VStr (join "," (map p_exe ps)) /\
     run_fmap X (MCached src ProcAPID) fr = VStr (join "," (map (fun p => format_int (hpid (p_oid p))) ps))) /\
  ((fr_ptree fr = None \/ fr_ptree fr = Some [] \/ exists p, fr_ptree fr = Some [p]) ->
     run_fmap X (MCached src PProcExe) fr = VStr "" /\ run_fmap X (MCached src PProcUser) fr = VStr "" /\
     run_fmap X (MCached src PProcUID) fr = VInt 0 /\ run_fmap X (MCached src PProcGID) fr = VInt 0).
Proof. exact parent_lookup. Qed.
Print Assumptions C07_parent_lookup.
Example C07_parent_case : run_fmap X0 (MCached SYSFLOW_SRC PProcExe) rec0 = VStr "/sbin/init"
  /\ run_fmap X0 (MCached SYSFLOW_SRC ProcAPID) rec0 = VStr "17,3".
Proof. split; reflexivity. Qed.

(** C07.  Names are the last components of executable paths, command lines the executable followed
    by its arguments if there are any. *)
Theorem C07_names_and_command_lines :
  forall X src fr,
  (forall p0 p ps, fr_ptree fr = Some (p0 :: p :: ps) ->
     (exists n, run_fmap X (MCached src PProcName) fr = VStr n /\ file_name (p_exe p) n) /\
     (exists l, run_fmap X (MCached src PProcCmdLine) fr = VStr l /\ command_line (p_exe p) (p_exeargs p) l)) /\
  (forall ps, fr_ptree fr = Some ps ->
     (exists ns, run_fmap X (MCached src ProcAName) fr = VStr (join "," ns) /\ Forall2 (fun p n => file_name (p_exe p) n) ps ns) /\
     (exists ls, run_fmap X (MCached src ProcACmdLine) fr = VStr (join "," ls) /\
        Forall2 (fun p l => command_line (p_exe p) (p_exeargs p) l) ps ls)).
Proof. exact names_lookup. Qed.
Print Assumptions C07_names_and_command_lines.
Theorem C07_base_name : forall path, file_name path (base_name path).
Proof. exact base_name_spec. Qed.
Print Assumptions C07_base_name.
Example C07_names_case : base_name "/usr/bin/ls" = "ls" /\ base_name "a//" = "a" /\ base_name "//" = "/" /\
  (exists ns, run_fmap X0 (MCached SYSFLOW_SRC ProcAName) rec0 = VStr ns).
Proof. repeat split. eexists. reflexivity. Qed.

(** C08.  After any history of annotation operations the rules are the added ones in
    order, the tags the added ones in order (since the tags were last replaced), the hash set of
    each kind the first one stored, the alert flag the last one set; each kind of annotation is
    untouched by the others. *)
Theorem C08_annotations_accumulate :
  forall (Rule : Type) (ops : list (ctx_op Rule)),
  ctx_getrules (ctx_run ops) = rules_of ops /\
  ctx_gettags (ctx_run ops) = tags_of ops /\
  (forall t, ctx_gethash t (ctx_run ops) = first_hash t ops) /\
  ctx_isalert (ctx_run ops) = alert_after false ops.
Proof. exact @ctx_run_spec. Qed.
Print Assumptions C08_annotations_accumulate.
Example C08_case : ctx_getrules (ctx_run [OAddRules ["r1"; "r2"]; OAddTags ["t"]; OAddRules ["r3"]]) = ["r1"; "r2"; "r3"].
Proof. reflexivity. Qed.

(** C09.  The prefilter admits exactly the listed types. *)
Theorem C09_prefilter :
  forall X M pf fr m,
  map_str X M "sf.type" = Ok m ->
  exists b, fr_applicable X M pf fr = Ok b /\ (b = true <-> pf = [] \/ In (m fr) pf).
Proof. exact fr_applicable_spec. Qed.
Print Assumptions C09_prefilter.
Example C09_case : fr_applicable X0 mappers ["PE"; "FE"] rec0 = Ok true
  /\ fr_applicable X0 mappers ["PE"; "FF"] rec0 = Ok false /\ fr_applicable X0 mappers [] rec0 = Ok true.
Proof. repeat split; vm_compute; reflexivity. Qed.

(** C47 (refuted).  Numeric comparison on the parent's uid/gid: the numeric reading is 0
    on every record, whatever the parent's uid is; a comparison such as
    [sf.pproc.uid > 500] can never hold. *)
Theorem C47_parent_uid_numeric_refuted :
  forall X fr a, In a ["sf.pproc.uid"; "sf.pproc.gid"; "proc.puid"; "proc.pgid"] -> map_int X mappers a fr = 0%Z.
Proof. exact parent_uid_numeric_zero. Qed.
Print Assumptions C47_parent_uid_numeric_refuted.
Example C47_case : (exists p ps, fr_ptree rec0 = Some (proc0 :: p :: ps) /\ p_uid p = 501%Z)
  /\ exists c, fr_compare X0 mappers "sf.pproc.uid" "500" OpGt = Ok (c, false) /\ c_eval c rec0 = false.
Proof. split; [do 2 eexists; split; reflexivity|]. eexists; split; [reflexivity|]. vm_compute. reflexivity. Qed.
(** What does hold: the current process's uid/gid/pid and timestamps are compared as stored. *)
Theorem C47_numeric_reading_partial :
  forall X fr attr src a, mget attr mappers = Some (MInt src a) ->
  map_int X mappers attr fr = get_int (fr_slots fr) a src.
Proof. exact int_reading. Qed.
Print Assumptions C47_numeric_reading_partial.
(** A numeric literal reads as its value. *)
Theorem C47_literal_reading :
  forall X fr z, in_int64 z = true ->
  map_int X mappers (format_int z) fr = z.
Proof. exact int_literal_reading. Qed.
Print Assumptions C47_literal_reading.
Example C47_partial_case : mget "sf.proc.uid" mappers = Some (MInt SYSFLOW_SRC PROC_UID_INT) /\ in_int64 (-12)%Z = true.
Proof. split; reflexivity. Qed.

(** C48.  A literal operand that is not an attribute name and contains no '[' is compared
    as itself (one pair of bounding quotes removed by the mapper). *)
Theorem C48_literal_denotes_itself_partial :
  forall X M lit fr m,
  mget lit M = None -> (forall a b, lit <> (a ++ "[" ++ b)%string) -> map_str X M lit = Ok m ->
  m fr = trim_bounding_quotes lit.
Proof. exact literal_reading. Qed.
Print Assumptions C48_literal_denotes_itself_partial.
(** Refuted in general: a literal beginning with '[' is compared as the empty string. *)
Theorem C48_bracket_literal_refuted :
  forall X rest fr m, map_str X mappers ("[" ++ rest) = Ok m -> m fr = "".
Proof. exact bracket_literal. Qed.
Print Assumptions C48_bracket_literal_refuted.
(** The text of an attribute: strings lose one pair of bounding quotes, numbers are in decimal, the
    flags [sf.proc.tty] and [sf.proc.entry] are true or false. *)
Theorem C48_attribute_text :
  forall X M attr v fr m, mget attr M = Some v -> (forall a b, attr <> (a ++ "[" ++ b)%string) -> map_str X M attr = Ok m ->
  let flag := attr = "sf.proc.tty" \/ attr = "sf.proc.entry" in
  (forall s, run_fmap X v fr = VStr s -> m fr = trim_bounding_quotes s) /\
  (forall z, run_fmap X v fr = VInt z -> ~ flag -> m fr = format_int z) /\
  (forall z, run_fmap X v fr = VInt z -> flag -> (z = 0%Z /\ m fr = "false") \/ (z <> 0%Z /\ m fr = "true")) /\
  (forall z, run_fmap X v fr = VInt32 z -> m fr = format_int z) /\
  (run_fmap X v fr = VBool true -> m fr = "true") /\ (run_fmap X v fr = VBool false -> m fr = "false").
Proof. exact attr_render. Qed.
Print Assumptions C48_attribute_text.
(** [field[path]] is the value at [path] in the JSON text of the field. *)
Theorem C48_path_into_field :
  forall X M b v path fr s m, mget b M = Some v -> (forall x y, b <> (x ++ "[" ++ y)%string) ->
  run_fmap X v fr = VStr s -> s <> "" -> path <> "" -> map_str X M (b ++ "[" ++ path ++ "]") = Ok m ->
  m fr = x_gjson X s path.
Proof. exact path_render. Qed.
Print Assumptions C48_path_into_field.
Example C48_text_case :
  (exists m, map_str X0 mappers "sf.proc.tty" = Ok m /\ (m rec0 = "true" \/ m rec0 = "false")) /\
  (exists m, map_str X0 mappers "sf.proc.exe[a.b]" = Ok m) /\ mhas "sf.proc.exe" mappers = true.
Proof. split; [|split; [eexists|]; reflexivity]. eexists. split; [reflexivity|]. vm_compute. tauto. Qed.
Example C48_case : (exists m, map_str X0 mappers "[kthreadd]" = Ok m /\ m rec0 = "")
  /\ (exists m, map_str X0 mappers "/bin/sh" = Ok m /\ m rec0 = "/bin/sh").
Proof. split; eexists; (split; [reflexivity|]); vm_compute; reflexivity. Qed.
