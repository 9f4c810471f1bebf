(** * FlatRecord: flattened records, field mappers and the flatrecord operations.

    Models core/policyengine/source/flatrecord/{record,fieldmapper,operations,
    prefilter,contextualizer,utils}.go.  The sfgo package (sf-apis) is not in
    /repo: its attribute positions become the constructors of [iattr], [sattr],
    [aattr] (assumed pairwise distinct, except that the per-event names
    EV_PROC_TS_INT, EV_FILE_TS_INT, FL_FILE_TS_INT, FL_NETW_TS_INT, ... are the shared
    slots TS_INT, TID_INT, OPFLAGS_INT, RET_INT, as the mappers require), and its
    functions are fields of [sfgo_fns]. *)
From Verif Require Import GoBase Predicates.

(** sfgo.Source values used in /repo. *)
Inductive source := SYSFLOW_SRC | PROCESS_SRC | FILE_SRC | NETWORK_SRC | TARG_PROC_SRC.
Scheme Equality for source.

(** Integer attribute slots of a flat record (flattener.go:126-378, filter.go:103-119). *)
Inductive iattr :=
| SF_REC_TYPE | TS_INT | TID_INT | OPFLAGS_INT | RET_INT
| SFHE_VERSION_INT
| CONT_TYPE_INT | CONT_PRIVILEGED_INT
| POD_TS_INT | POD_RESTARTCOUNT_INT
| K8SE_KIND_INT | K8SE_ACTION_INT
| PROC_STATE_INT | PROC_OID_CREATETS_INT | PROC_OID_HPID_INT
| PROC_POID_CREATETS_INT | PROC_POID_HPID_INT | PROC_TS_INT
| PROC_UID_INT | PROC_GID_INT | PROC_TTY_INT | PROC_ENTRY_INT
| FILE_STATE_INT | FILE_TS_INT | FILE_RESTYPE_INT
| SEC_FILE_STATE_INT | SEC_FILE_TS_INT | SEC_FILE_RESTYPE_INT
| FL_FILE_OPENFLAGS_INT | FL_FILE_ENDTS_INT | FL_FILE_FD_INT
| FL_FILE_NUMRRECVOPS_INT | FL_FILE_NUMWSENDOPS_INT
| FL_FILE_NUMRRECVBYTES_INT | FL_FILE_NUMWSENDBYTES_INT
| FL_NETW_ENDTS_INT | FL_NETW_SIP_INT | FL_NETW_SPORT_INT | FL_NETW_DIP_INT
| FL_NETW_DPORT_INT | FL_NETW_PROTO_INT | FL_NETW_FD_INT
| FL_NETW_NUMRRECVOPS_INT | FL_NETW_NUMWSENDOPS_INT
| FL_NETW_NUMRRECVBYTES_INT | FL_NETW_NUMWSENDBYTES_INT.
Scheme Equality for iattr.

(** Shared slots under their per-event names. *)
Notation EV_PROC_OPFLAGS_INT := OPFLAGS_INT (only parsing).

(** String attribute slots. *)
Inductive sattr :=
| SFHE_EXPORTER_STR | SFHE_IP_STR | SFHE_FILENAME_STR
| CONT_ID_STR | CONT_NAME_STR | CONT_IMAGE_STR | CONT_IMAGEID_STR
| POD_ID_STR | POD_NAME_STR | POD_NODENAME_STR | POD_NAMESPACE_STR
| POD_HOSTIP_STR | POD_INTERNALIP_STR | POD_SERVICES_STR
| K8SE_MESSAGE_STR
| PROC_EXE_STR | PROC_EXEARGS_STR | PROC_USERNAME_STR | PROC_GROUPNAME_STR
| PROC_CONTAINERID_STRING_STR
| FILE_OID_STR | FILE_PATH_STR | FILE_CONTAINERID_STRING_STR
| SEC_FILE_OID_STR | SEC_FILE_PATH_STR | SEC_FILE_CONTAINERID_STRING_STR.
Scheme Equality for sattr.

(** Untyped attribute slots (pod addresses and services). *)
Inductive aattr := POD_HOSTIP_ANY | POD_INTERNALIP_ANY | POD_SERVICES_ANY.
Scheme Equality for aattr.

(** sfgo.Service / sfgo.Port (fields used in exporter/encoders/json.go). *)
Record port := mkPort { p_port : Z; p_target : Z; p_node : Z; p_proto : string }.
Record service := mkService { s_name : string; s_id : string; s_namespace : string;
                              s_ports : list port; s_clusterip : list Z }.

(** Dynamic values stored in the Anys slice: nil, *[]int64, *[]*Service. *)
Inductive anyval := ANil | AInts (l : list Z) | ASvcs (l : list service).

(** sfgo.OID *)
Record oid := mkOid { hpid : Z; createts : Z }.
Definition oid_eqb (a b : oid) : bool := Z.eqb (hpid a) (hpid b) && Z.eqb (createts a) (createts b).

(** sfgo.Process.  Unions: [None] stands for a nil or null union. *)
Record process := mkProc {
  p_state : nat; p_oid : oid; p_poid : option oid; p_ts : Z;
  p_exe : string; p_exeargs : string; p_uid : Z; p_username : string;
  p_gid : Z; p_groupname : string; p_tty : bool; p_entry : bool;
  p_contid : option string
}.

(** sfgo.FlatRecord.  Simplification: the parallel slices Sources, Ints, Strs and
    Anys are one list of slots (equal lengths, as flattener.go:408-419 builds them),
    and every slot is defined on all attributes. [fr_ptree = None] is a nil slice. *)
Record slot := mkSlot { sl_src : source; sl_ints : iattr -> Z; sl_strs : sattr -> string; sl_anys : aattr -> anyval }.
Record flatrec := mkFlat { fr_slots : list slot; fr_ptree : option (list process) }.

(** record.go:199-211 [Context]: four slots, nil until set. [HashSet] is abstract
    (three strings, record.go:292-296). *)
Record hashset := mkHash { h_md5 : string; h_sha1 : string; h_sha256 : string }.

(** sfgo functions and other external pure functions. *)
Record sfgo_fns := mkSfgo {
  x_rectype : Z -> string;                    (* ParseRecordType(_).String() *)
  x_opflags : Z -> string -> list string;     (* GetOpFlags(int32, rtype) *)
  x_filetype : Z -> string;                   (* GetFileType *)
  x_isopenwrite : Z -> bool; x_isopenread : Z -> bool;
  x_openflags : Z -> list string;
  x_ipstr : Z -> string;                      (* GetIPStr(int32) *)
  x_conttype : Z -> string;
  x_k8saction : Z -> string; x_k8skind : Z -> string;
  x_hashhex : string -> string;               (* fmt %x of xxhash of the bytes written *)
  x_symscan : string -> option (string * string); (* the two fmt.Sscanf attempts of utils.go:34-40 *)
  x_dir : string -> string;                   (* filepath.Dir *)
  x_gjson : string -> string -> string;       (* gjson.Get(v, path).String() *)
  x_regfind : string -> option (string -> string) (* regexp.Compile(re) then FindString *)
}.

(** sfgo record type ids compared with SF_REC_TYPE (fieldmapper.go:572-590,
    filter.go:112-122, flattener.go:126-241).  The numeric values are those of
    sfgo's enumeration; only their distinctness matters here. *)
Definition PROC_EVT : Z := 4%Z.
Definition NET_FLOW : Z := 5%Z.
Definition FILE_FLOW : Z := 6%Z.
Definition FILE_EVT : Z := 7%Z.
Definition K8S_EVT : Z := 11%Z.

(** filepath.Base (Unix): strip trailing slashes, keep what follows the last slash;
    "." for the empty string, "/" for a string of slashes. *)
Fixpoint drop_slashes (s : string) : string :=
  match s with
  | String a s' => if Ascii.eqb a "/"%char then drop_slashes s' else s
  | EmptyString => EmptyString
  end.
Fixpoint take_noslash (s : string) : string :=
  match s with
  | String a s' => if Ascii.eqb a "/"%char then EmptyString else String a (take_noslash s')
  | EmptyString => EmptyString
  end.
Definition base_name (s : string) : string :=
  match s with
  | EmptyString => "."
  | _ => match take_noslash (drop_slashes (srev s)) with
         | EmptyString => "/"
         | t => srev t
         end
  end.

(** record.go:70-77 [GetInt]: the first slot whose source is [src]. *)
Fixpoint get_int (sl : list slot) (a : iattr) (src : source) : Z :=
  match sl with
  | [] => 0%Z
  | s :: sl' => if source_beq (sl_src s) src then sl_ints s a else get_int sl' a src
  end.

(** record.go:106-113 [GetStr] *)
Fixpoint get_str (sl : list slot) (a : sattr) (src : source) : string :=
  match sl with
  | [] => ""
  | s :: sl' => if source_beq (sl_src s) src then sl_strs s a else get_str sl' a src
  end.

(** record.go:80-103 [GetIntArray] / [GetSvcArray]; [None] is a nil pointer. *)
Fixpoint get_any (sl : list slot) (a : aattr) (src : source) : anyval :=
  match sl with
  | [] => ANil
  | s :: sl' => if source_beq (sl_src s) src then sl_anys s a else get_any sl' a src
  end.
Definition get_int_array (sl : list slot) (a : aattr) (src : source) : option (list Z) :=
  match get_any sl a src with AInts l => Some l | _ => None end.
Definition get_svc_array (sl : list slot) (a : aattr) (src : source) : option (list service) :=
  match get_any sl a src with ASvcs l => Some l | _ => None end.

(** record.go:52-67 *)
Inductive recattr :=
| PProcName | PProcExe | PProcArgs | PProcUID | PProcUser | PProcGID | PProcGroup
| PProcTTY | PProcEntry | PProcCmdLine | ProcAExe | ProcAName | ProcACmdLine | ProcAPID.

(** Dynamic Go values produced by field maps. *)
Inductive gval :=
| VStr (s : string) | VInt (z : Z) | VInt32 (z : Z) | VBool (b : bool)
| VIntArr (o : option (list Z)) | VSvcArr (o : option (list service)).

(** record.go:157-160 and 177-181: command line of a process. *)
Definition cmdline (p : process) : string :=
  if Nat.ltb 0 (slen (p_exeargs p)) then (p_exe p ++ " " ++ p_exeargs p)%string else p_exe p.

(** record.go:116-197 [GetCachedValue]. [ptree[1]] is the parent. *)
Definition cached_default (a : recattr) : gval :=
  match a with
  | PProcUID | PProcGID | PProcTTY | PProcEntry => VInt 0
  | _ => VStr ""
  end.
Definition cached_parent (a : recattr) (p : process) : gval :=
  match a with
  | PProcName => VStr (base_name (p_exe p))
  | PProcExe => VStr (p_exe p)
  | PProcArgs => VStr (p_exeargs p)
  | PProcUID => VInt32 (p_uid p)
  | PProcUser => VStr (p_username p)
  | PProcGID => VInt32 (p_gid p)
  | PProcGroup => VStr (p_groupname p)
  | PProcTTY => VBool (p_tty p)
  | PProcEntry => VBool (p_entry p)
  | PProcCmdLine => VStr (cmdline p)
  | _ => VStr ""
  end.
Definition get_cached (pt : option (list process)) (a : recattr) : gval :=
  match pt with
  | None => cached_default a
  | Some ps =>
      match a with
      | ProcAName => VStr (join "," (map (fun p => base_name (p_exe p)) ps))
      | ProcAExe => VStr (join "," (map p_exe ps))
      | ProcACmdLine => VStr (join "," (map cmdline ps))
      | ProcAPID => VStr (join "," (map (fun p => format_int (hpid (p_oid p))) ps))
      | _ => match ps with
             | _ :: p :: _ => cached_parent a p
             | _ => cached_default a
             end
      end
  end.

(** fieldmapper.go:510-728: the field map constructors, as data. *)
Inductive fieldmap :=
| MStr (src : source) (a : sattr)
| MInt (src : source) (a : iattr)
| MIntArray (src : source) (a : aattr)
| MSvcArray (src : source) (a : aattr)
| MSum (src : source) (l : list iattr)
| MJoin (src : source) (l : list sattr)
| MRecType (src : source)
| MOpFlags (src : source)
| MRet (src : source)
| MEndTs (src : source)
| MName (src : source) (a : sattr)
| MDir (src : source) (a : sattr)
| MPath (src : source) (a : sattr)
| MSymlink (src : source) (a : sattr)
| MFileType (src : source) (a : iattr)
| MIsOpenWrite (src : source) (a : iattr)
| MIsOpenRead (src : source) (a : iattr)
| MOpenFlags (src : source) (a : iattr)
| MPort (src : source) (l : list iattr)
| MIP (src : source) (l : list iattr)
| MContType (src : source) (a : iattr)
| MAction (src : source) (a : iattr)
| MKind (src : source) (a : iattr)
| MCached (src : source) (a : recattr)
| MOID (src : source) (l : list iattr)
| MConsts (l : list string).

Section Mapper.
Variable X : sfgo_fns.

(** utils.go:29-42 [parseSymPath] *)
Definition parse_sym_path (orig : string) : string * string :=
  match x_symscan X orig with Some p => p | None => (orig, "") end.

(** fieldmapper.go:510-728: what each field map returns on a record. *)
Definition run_fmap (m : fieldmap) (fr : flatrec) : gval :=
  let sl := fr_slots fr in
  match m with
  | MStr src a => VStr (get_str sl a src)                                        (* 510-512 *)
  | MInt src a => VInt (get_int sl a src)                                        (* 514-516 *)
  | MIntArray src a => VIntArr (get_int_array sl a src)                          (* 518-520 *)
  | MSvcArray src a => VSvcArr (get_svc_array sl a src)                          (* 522-524 *)
  | MSum src l => VInt (fold_left (fun acc a => wrap64 (acc + get_int sl a src)) l 0%Z) (* 526-534 *)
  | MJoin src l =>                                                               (* 536-544 *)
      match l with
      | [] => VStr "" (* attrs[0] panics; never used *)
      | a :: l' => VStr (fold_left (fun acc b => (acc ++ " " ++ get_str sl b src)%string) l' (get_str sl a src))
      end
  | MRecType src => VStr (x_rectype X (get_int sl SF_REC_TYPE src))              (* 546-551 *)
  | MOpFlags src =>                                                              (* 553-559 *)
      VStr (join "," (x_opflags X (wrap32 (get_int sl OPFLAGS_INT src)) (x_rectype X (get_int sl SF_REC_TYPE src))))
  | MRet src =>                                                                  (* 570-581 *)
      let t := get_int sl SF_REC_TYPE src in
      VInt (if (Z.eqb t PROC_EVT || Z.eqb t FILE_EVT)%bool then get_int sl RET_INT src else 0%Z)
  | MEndTs src =>                                                                (* 583-596 *)
      let t := get_int sl SF_REC_TYPE src in
      VInt (if Z.eqb t FILE_FLOW then get_int sl FL_FILE_ENDTS_INT src
            else if Z.eqb t NET_FLOW then get_int sl FL_NETW_ENDTS_INT src
            else if Z.eqb t K8S_EVT then get_int sl TS_INT src
            else 0%Z)
  | MName src a => VStr (base_name (get_str sl a src))                           (* 605-609 *)
  | MDir src a => VStr (x_dir X (fst (parse_sym_path (get_str sl a src))))       (* 611-615 *)
  | MPath src a => VStr (fst (parse_sym_path (get_str sl a src)))                (* 624-629 *)
  | MSymlink src a => VStr (snd (parse_sym_path (get_str sl a src)))             (* 631-636 *)
  | MFileType src a => VStr (x_filetype X (get_int sl a src))                    (* 638-642 *)
  | MIsOpenWrite src a => VBool (x_isopenwrite X (get_int sl a src))             (* 644-648 *)
  | MIsOpenRead src a => VBool (x_isopenread X (get_int sl a src))               (* 650-654 *)
  | MOpenFlags src a => VStr (join "," (x_openflags X (get_int sl a src)))       (* 656-660 *)
  | MPort src l => VStr (join "," (map (fun a => format_int (get_int sl a src)) l)) (* 669-677 *)
  | MIP src l => VStr (join "," (map (fun a => x_ipstr X (wrap32 (get_int sl a src))) l)) (* 679-687 *)
  | MContType src a => VStr (x_conttype X (get_int sl a src))                    (* 689-693 *)
  | MAction src a => VStr (x_k8saction X (get_int sl a src))                     (* 695-699 *)
  | MKind src a => VStr (x_k8skind X (get_int sl a src))                         (* 701-705 *)
  | MCached src a => get_cached (fr_ptree fr) a                                  (* 707-712; the OID is unused *)
  | MOID src l => VStr (x_hashhex X (fold_left (fun acc a => (acc ++ format_int (get_int sl a src))%string) l "")) (* 714-722 *)
  | MConsts l => VStr (join "," l)                                               (* 724-728 *)
  end.

(** fieldmapper.go:110-116 [Map]: a known attribute uses its map, any other name
    denotes itself as a constant. *)
Variable mappers : gomap fieldmap.

Definition map_attr (attr : string) (fr : flatrec) : gval :=
  match mget attr mappers with
  | Some m => run_fmap m fr
  | None => VStr attr
  end.

(** fieldmapper.go:119-129 [MapInt] *)
Definition map_int (attr : string) (fr : flatrec) : Z :=
  match map_attr attr fr with
  | VInt v => v
  | _ => match parse_int64 attr with Some v => v | None => 0%Z end
  end.

(** fieldmapper.go:161-192 [MapStr].  [Panic] when the attribute ends in '[' after a
    known field name: [jsonpath[:len(jsonpath)-1]] with an empty jsonpath (170). *)
Definition SF_PROC_TTY := "sf.proc.tty".
Definition SF_PROC_ENTRY := "sf.proc.entry".

(** (baseattr, Some jsonpath) when the attribute is a path expression (163-171). *)
Definition split_path (attr : string) : res (string * option string) :=
  match cut_at "["%char attr with
  | Some (b, path) =>
      if mhas b mappers then
        match path with
        | EmptyString => Panic
        | _ => Ok (b, Some (stake (slen path - 1) path))
        end
      else Ok (b, None)
  | None => Ok (attr, None)
  end.

Definition render (baseattr : string) (path : option string) (v : gval) : string :=
  match v with
  | VStr s =>
      match path with
      | Some p => if negb (seqb s "") && negb (seqb p "") then x_gjson X s p
                  else trim_bounding_quotes s
      | None => trim_bounding_quotes s
      end
  | VInt z => if seqb baseattr SF_PROC_TTY || seqb baseattr SF_PROC_ENTRY
              then format_bool (negb (Z.eqb z 0)) else format_int z
  | VInt32 z => format_int z
  | VBool b => format_bool b
  | _ => ""
  end.

Definition map_str (attr : string) : res (flatrec -> string) :=
  let* (b, path) := split_path attr in
  Ok (fun fr => render b path (map_attr b fr)).

(** ** operations.go *)

(** operations.go:117-128 [compareStr]: any component against any component. *)
Definition compare_str (l r : string) (op : string -> string -> bool) : bool :=
  existsb (fun a => existsb (fun b => op a b) (split_on ","%char r)) (split_on ","%char l).

(** operations.go:43-47 [Exists]: reflect IsZero of the mapped value. *)
Definition is_zero (v : gval) : bool :=
  match v with
  | VStr s => seqb s ""
  | VInt z => Z.eqb z 0
  | VInt32 z => Z.eqb z 0
  | VBool b => negb b
  | VIntArr o => match o with None => true | Some _ => false end
  | VSvcArr o => match o with None => true | Some _ => false end
  end.
Definition fr_exists (attr : string) : res (criterion flatrec * bool) :=
  Ok (fun fr => negb (is_zero (map_attr attr fr)), false).

(** operations.go:58-75 *)
Definition fr_compare_str (l r : string) (op : operator) : res (criterion flatrec * bool) :=
  match str_op op with
  | None => Panic
  | Some o => let* ml := map_str l in let* mr := map_str r in
              Ok (fun fr => compare_str (ml fr) (mr fr) o, false)
  end.
Definition fr_compare_int (l r : string) (op : operator) : res (criterion flatrec * bool) :=
  match int_op op with
  | None => Panic
  | Some o => Ok (fun fr => o (map_int l fr) (map_int r fr), false)
  end.
(** operations.go:50-56 [Compare] *)
Definition fr_compare (l r : string) (op : operator) : res (criterion flatrec * bool) :=
  match op with
  | OpLt | OpLEq | OpGt | OpGEq => fr_compare_int l r op
  | _ => fr_compare_str l r op
  end.

(** operations.go:78-90 [FoldAny] *)
Definition fr_foldany (attr : string) (l : list string) (op : operator) : res (criterion flatrec * bool) :=
  match str_op op with
  | None => Panic (* a nil function is called as soon as the list is non-empty *)
  | Some o => let* m := map_str attr in
              Ok (fun fr => existsb (fun v => compare_str (m fr) v o) l, false)
  end.
(** operations.go:93-105 [FoldAll] *)
Definition fr_foldall (attr : string) (l : list string) (op : operator) : res (criterion flatrec * bool) :=
  match str_op op with
  | None => Panic
  | Some o => let* m := map_str attr in
              Ok (fun fr => forallb (fun v => compare_str (m fr) v o) l, false)
  end.
(** operations.go:108-117 [RegExp] *)
Definition fr_regexp (attr re : string) : res (criterion flatrec * bool) :=
  match x_regfind X re with
  | Some find => let* m := map_str attr in
                 Ok (fun fr => negb (seqb (find (m fr)) ""), false)
  | None => Ok (c_false, true)
  end.

Definition flat_ops : operations flatrec :=
  mkOps fr_exists fr_compare fr_foldany fr_foldall fr_regexp.

(** prefilter.go:35-46 *)
Definition fr_applicable (pf : list string) (fr : flatrec) : res bool :=
  match pf with
  | [] => Ok true
  | _ => let* m := map_str "sf.type" in
         Ok (existsb (fun p => seqb (m fr) p) pf)
  end.

End Mapper.

(** ** Context (record.go:199-283) *)
Section Context.
Context {Rule : Type}.
Record context := mkCtx {
  cx_alert : option bool; cx_rules : option (list Rule);
  cx_tags : option (list string); cx_hashes : option (option hashset * option hashset)
}.
(** record.go:44 [make(Context, 4)] *)
Definition ctx_new : context := mkCtx None None None None.
(** record.go:213-222 *)
Definition ctx_isalert (c : context) : bool := match cx_alert c with Some b => b | None => false end.
Definition ctx_setalert (b : bool) (c : context) : context :=
  mkCtx (Some b) (cx_rules c) (cx_tags c) (cx_hashes c).
(** record.go:225-232 *)
Definition ctx_addrules (rs : list Rule) (c : context) : context :=
  let base := match cx_rules c with Some l => l | None => [] end in
  mkCtx (cx_alert c) (Some (fold_left (fun acc r => acc ++ [r]) rs base)) (cx_tags c) (cx_hashes c).
(** record.go:235-240 (nil is the empty slice) *)
Definition ctx_getrules (c : context) : list Rule := match cx_rules c with Some l => l | None => [] end.
(** record.go:243-245 *)
Definition ctx_settags (ts : list string) (c : context) : context :=
  mkCtx (cx_alert c) (cx_rules c) (Some ts) (cx_hashes c).
(** record.go:248-255 *)
Definition ctx_addtags (ts : list string) (c : context) : context :=
  let base := match cx_tags c with Some l => l | None => [] end in
  mkCtx (cx_alert c) (cx_rules c) (Some (fold_left (fun acc t => acc ++ [t]) ts base)) (cx_hashes c).
(** record.go:258-263 *)
Definition ctx_gettags (c : context) : list string := match cx_tags c with Some l => l | None => [] end.
(** record.go:287-290 *)
Inductive hashtype := HProc | HFile.
(** record.go:265-271 *)
Definition ctx_gethash (t : hashtype) (c : context) : option hashset :=
  match cx_hashes c with
  | None => None
  | Some (p, f) => match t with HProc => p | HFile => f end
  end.
(** record.go:274-283: the first hash set stored for a type stays. *)
Definition ctx_sethashes (t : hashtype) (h : hashset) (c : context) : context :=
  let (p, f) := match cx_hashes c with Some pf => pf | None => (None, None) end in
  let pf' := match t with
             | HProc => (match p with None => Some h | Some _ => p end, f)
             | HFile => (p, match f with None => Some h | Some _ => f end)
             end in
  mkCtx (cx_alert c) (cx_rules c) (cx_tags c) (Some pf').
End Context.
Arguments context Rule : clear implicits.
