(** * EcsModel: core/exporter/encoders/ecs.go, and the bulk indexer's use of document identifiers
    (core/exporter/transports/elastic.go:82-135).

    Go maps are association lists ([gomap]); json.Marshal writes them sorted by key, so only the association matters. *)
From Verif Require Import GoBase Predicates FlatRecord FieldTables EngineModel EngineFlat FlattenModel.

(** Values of a JSONData map: strings, integers of any width, booleans, slices, nested maps, nil. *)
Inductive eval := ENull | EStr (s : string) | EInt (z : Z) | EBool (b : bool) | EList (l : list eval) | EMap (m : list (string * eval)).
Notation edata := (gomap eval) (only parsing).

(** The operations whose flags ecs.go tests. *)
Inductive op := OpClone | OpExec | OpExit | OpSetuid | OpReadRecv | OpWriteSend | OpMkdir | OpRmdir | OpLink | OpUnlink | OpSymlink | OpRename.
(** External functions and constants: the bit of each operation in sfgo (OP_X = 1 << op_bit), the values of
    sfgo.K8sAction, sfgo.GetProto, gommunityid, time.Unix(sec, ns).In(UTC).Format(RFC3339Nano), strings.ToLower. *)
Record ecs_fns := mkEcsFns {
  op_bit : op -> Z;
  k8s_added : Z; k8s_modified : Z; k8s_deleted : Z; k8s_error : Z;
  x_proto : Z -> string;
  x_cid : string -> string -> Z -> Z -> Z -> string;
  x_time : Z -> Z -> string;
  x_lower : string -> string
}.

(** ecs.go:49-73 *)
Record ecsdoc := mkEcs {
  e_id : string; e_ts : string; e_agent_version : string; e_ecs_version : string;
  e_event : option (gomap eval); e_host : gomap eval; e_container : option (gomap eval); e_orch : option (gomap eval);
  e_pod : option (gomap eval); e_service : list (gomap eval); e_file : option (gomap eval); e_fileaction : option (gomap eval);
  e_network : option (gomap eval); e_source : option (gomap eval); e_destination : option (gomap eval);
  e_process : option (gomap eval); e_user : option (gomap eval); e_tags : list string }.

Section Ecs.
Variable X : sfgo_fns.
Variable E : ecs_fns.
(** flatrecord.Mapper.MapStr(name)(rec), MapInt, MapIntArray, MapSvcArray (fieldmapper.go:119-193) *)
Definition sget (name : string) (fr : flatrec) : string := match map_str X mappers name with Ok f => f fr | _ => "" end.
Definition iget (name : string) (fr : flatrec) : Z := map_int X mappers name fr.
Definition iaget (name : string) (fr : flatrec) : option (list Z) := match map_attr X mappers name fr with VIntArr o => o | _ => None end.
Definition svget (name : string) (fr : flatrec) : option (list service) := match map_attr X mappers name fr with VSvcArr o => o | _ => None end.
(** opFlags & sfgo.OP_X == sfgo.OP_X *)
Definition has_op (flags : Z) (o : op) : bool := let m := Z.shiftl 1 (op_bit E o) in Z.eqb (Z.land flags m) m.
(** utils.go:59-64 *)
Definition iso (ts : Z) : string := x_time E (Z.quot ts 1000000000) (Z.rem ts 1000000000).
(** utils.go:67-73: dereferences its argument. *)
Definition ip_strs (o : option (list Z)) : res eval :=
  match o with Some l => Ok (EList (map (fun ip => EStr (x_ipstr X (wrap32 ip))) l)) | None => Panic end.

(** ecs.go:166-201: the bytes hashed for the document identifier. *)
Definition id_bytes (fr : flatrec) : string :=
  let i a := get_int (fr_slots fr) a SYSFLOW_SRC in
  let t := sget "sf.type" fr in
  (sget "sf.node.id" fr ++ sget "sf.container.id" fr ++ le64 (i TS_INT) ++ le64 (i TID_INT) ++ le64 (i PROC_OID_CREATETS_INT) ++ le64 (i OPFLAGS_INT) ++
   (if seqb t "FF" || seqb t "FE" then sget "sf.file.oid" fr
    else if seqb t "NF" then le64 (i FL_NETW_SIP_INT) ++ le64 (i FL_NETW_SPORT_INT) ++ le64 (i FL_NETW_DIP_INT) ++ le64 (i FL_NETW_DPORT_INT) ++ le64 (i FL_NETW_PROTO_INT)
    else if seqb t "KE" then le64 (i K8SE_ACTION_INT) ++ le64 (i K8SE_KIND_INT) ++ sget "sf.ke.message" fr
    else ""))%string.
Definition encode_id (fr : flatrec) : string := x_hashhex X (id_bytes fr).

(** ecs.go:499-528 *)
Definition encode_event (fr : flatrec) (ctx : context rmeta) (category type action : string) : gomap eval :=
  let start := iget "sf.ts" fr in
  let e := iget "sf.endts" fr in
  let fin := if Z.eqb e 0 then start else e in
  let t := sget "sf.type" fr in
  ([("category", EStr category); ("type", EStr type); ("action", EStr action); ("sf_type", EStr t); ("start", EStr (iso start)); ("end", EStr (iso fin));
    ("duration", EInt (wrap64 (fin - start))); ("kind", EStr (if ctx_isalert ctx then "alert" else "event"))]
   ++ (if seqb t "PE" || seqb t "FE" then [("sf_ret", EInt (iget "sf.ret" fr))] else []))%list.

(** ecs.go:565-582 *)
Definition encode_filetype (ft : string) : string :=
  if seqb ft "f" then "file" else if seqb ft "d" then "dir" else if seqb ft "u" then "socket" else if seqb ft "p" then "pipe" else "unknown".
(** ecs.go:531-563 *)
Definition encode_file (fr : flatrec) : gomap eval :=
  let flags := get_int (fr_slots fr) OPFLAGS_INT SYSFLOW_SRC in
  let ft := encode_filetype (sget "sf.file.type" fr) in
  let ft := if has_op flags OpSymlink then "symlink" else ft in
  let p := sget "sf.file.path" fr in
  let fd := iget "sf.file.fd" fr in
  let pid := iget "sf.proc.pid" fr in
  let fpath := if seqb p "" then ("/proc/" ++ format_int pid ++ "/fd/" ++ format_int fd)%string else p in
  let name := if seqb p "" then format_int fd else base_name p in
  (("type", EStr ft) ::
   (if seqb ft "dir" then [("directory", EStr fpath)]
    else [("name", EStr name); ("directory", EStr (x_dir X fpath))] ++ (if seqb fpath name then [] else [("path", EStr fpath)])))%list.

(** ecs.go:204-240 *)
Definition encode_network (fr : flatrec) : gomap eval * gomap eval * gomap eval :=
  let rbytes := iget "sf.flow.rbytes" fr in let rops := iget "sf.flow.rops" fr in
  let wbytes := iget "sf.flow.wbytes" fr in let wops := iget "sf.flow.wops" fr in
  let sip := sget "sf.net.sip" fr in let dip := sget "sf.net.dip" fr in
  let sport := iget "sf.net.sport" fr in let dport := iget "sf.net.dport" fr in let proto := iget "sf.net.proto" fr in
  ([("bytes", EInt (wrap64 (rbytes + wbytes))); ("community_id", EStr (x_cid E sip dip (sport mod 65536) (dport mod 65536) (proto mod 256)));
    ("iana_number", EStr (format_int proto)); ("protocol", EStr (x_proto E proto))],
   [("ip", EStr sip); ("port", EInt sport); ("address", EStr sip); ("bytes", EInt wbytes); ("packets", EInt wops)],
   [("ip", EStr dip); ("port", EInt dport); ("address", EStr dip); ("bytes", EInt rbytes); ("packets", EInt rops)]).
(** ecs.go:243-269: (event type, action), and the file action. *)
Definition classify_fileflow (flags rbytes rops wbytes wops : Z) : string * string :=
  let reads := has_op flags OpReadRecv && (Z.ltb 0 rbytes || Z.ltb 0 rops) in
  let writes := has_op flags OpWriteSend && (Z.ltb 0 wbytes || Z.ltb 0 wops) in
  (if writes then "change" else "access", ("file-access" ++ (if reads then "-read" else "") ++ (if writes then "-write" else ""))%string).
Definition file_action (rbytes rops wbytes wops : Z) : option (gomap eval) :=
  if Z.ltb 0 rbytes || Z.ltb 0 rops || Z.ltb 0 wbytes || Z.ltb 0 wops
  then Some [("bytes_read", EInt rbytes); ("read_ops", EInt rops); ("bytes_written", EInt wbytes); ("write_ops", EInt wops)] else None.
(** ecs.go:272-298: (category, event type, action, whether target_path is set). *)
Definition classify_fileevent (flags : Z) : string * string * string * bool :=
  if has_op flags OpMkdir then ("directory", "creation", "directory-create", false)
  else if has_op flags OpRmdir then ("directory", "deletion", "directory-delete", false)
  else if has_op flags OpUnlink then ("file", "deletion", "file-delete", false)
  else if has_op flags OpSymlink || has_op flags OpLink then ("file", "change", "file-link", true)
  else if has_op flags OpRename then ("file", "change", "file-rename", true)
  else ("file", "change", "file-change", false).
(** ecs.go:301-324: the event type. *)
Definition classify_process (flags pid tid : Z) : string :=
  if has_op flags OpExit then if Z.eqb pid tid then "exit" else "thread-exit"
  else if has_op flags OpClone || has_op flags OpExec then if Z.eqb pid tid then "start" else "thread-start"
  else if has_op flags OpSetuid then "change"
  else "start".
(** ecs.go:326-340: reads the first slot of the record, whatever its source. *)
Definition classify_k8s (fr : flatrec) : res string :=
  match fr_slots fr with
  | [] => Panic
  | sl :: _ => let a := wrap32 (sl_ints sl K8SE_ACTION_INT) in
      Ok (if Z.eqb a (k8s_added E) then "creation" else if Z.eqb a (k8s_deleted E) then "deletion"
          else if Z.eqb a (k8s_modified E) then "change" else if Z.eqb a (k8s_error E) then "error" else "info")
  end.

(** ecs.go:364-373, 352-360 *)
Definition orchestrator (ns ty name : string) : gomap eval :=
  [("namespace", EStr ns); ("resource", EMap [("type", EStr ty); ("name", EStr name)]); ("type", EStr "kubernetes")].
Definition pod_orchestrator (fr : flatrec) : gomap eval := orchestrator (sget "sf.pod.namespace" fr) "pod" (sget "sf.pod.name" fr).
Definition k8s_orchestrator (msg : string) : gomap eval :=
  orchestrator (x_gjson X msg "items.0.namespace") (x_lower E (x_gjson X msg "kind")) (x_gjson X msg "items.0.name").
(** ecs.go:409-420 *)
Definition encode_port (p : port) : eval :=
  EMap [("port", EInt (p_port p)); ("targetport", EInt (p_target p)); ("nodeport", EInt (p_node p)); ("proto", EStr (p_proto p))].
(** ecs.go:395-406 *)
Definition encode_service (s : service) : gomap eval :=
  [("id", EStr (s_id s)); ("name", EStr (s_name s)); ("namespace", EStr (s_namespace s));
   ("clusterip", EList (map (fun ip => EStr (x_ipstr X (wrap32 ip))) (s_clusterip s))); ("ports", EList (map encode_port (s_ports s)))].
(** ecs.go:376-392.  The test against sfgo.Zeros.Any is that of a pointer against a nil interface: always true, and
    the dereference that follows panics on nil. *)
Definition encode_pod (fr : flatrec) : res (gomap eval * list (gomap eval)) :=
  let* hostip := ip_strs (iaget "sf.pod.hostip+" fr) in
  let* internalip := ip_strs (iaget "sf.pod.internalip+" fr) in
  match svget "sf.pod.services+" fr with
  | None => Panic
  | Some svcs => Ok ([("ts", EStr (iso (iget "sf.pod.ts" fr))); ("id", EStr (sget "sf.pod.id" fr)); ("name", EStr (sget "sf.pod.name" fr));
      ("nodename", EStr (sget "sf.pod.nodename" fr)); ("namespace", EStr (sget "sf.pod.namespace" fr)); ("hostip", hostip);
      ("internalip", internalip); ("restartcnt", EInt (iget "sf.pod.restartcnt" fr))], map encode_service svcs)
  end.
(** ecs.go:423-443 *)
Definition encode_container (fr : flatrec) : option (gomap eval) :=
  let cid := sget "sf.container.id" fr in
  if seqb cid "" then None else
  Some ([("id", EStr cid); ("runtime", EStr (sget "sf.container.type" fr)); ("sf_privileged", EBool (negb (Z.eqb (iget "sf.container.privileged" fr) 0)));
         ("name", EStr (sget "sf.container.name" fr))] ++
        (let iid := sget "sf.container.imageid" fr in
         if seqb iid "" then [] else [("image", EMap [("id", EStr iid); ("name", EStr (sget "sf.container.image" fr))])]))%list.
(** ecs.go:446-451 *)
Definition encode_host (fr : flatrec) : gomap eval := [("id", EStr (sget "sf.node.id" fr)); ("ip", EStr (sget "sf.node.ip" fr))].
(** ecs.go:454-471 *)
Definition encode_user (fr : flatrec) : gomap eval :=
  let gname := sget "sf.proc.group" fr in let uname := sget "sf.proc.user" fr in
  ([("group", EMap (("id", EInt (iget "sf.proc.gid" fr)) :: (if seqb gname "" then [] else [("name", EStr gname)]))); ("id", EInt (iget "sf.proc.uid" fr))]
   ++ (if seqb uname "" then [] else [("name", EStr uname)]))%list.
(** ecs.go:474-496 *)
Definition encode_process (fr : flatrec) : gomap eval :=
  let exe := sget "sf.proc.exe" fr in let pexe := sget "sf.pproc.exe" fr in
  [("executable", EStr exe); ("args", EStr (sget "sf.proc.args" fr)); ("command_line", EStr (sget "sf.proc.cmdline" fr)); ("pid", EInt (iget "sf.proc.pid" fr));
   ("start", EStr (iso (iget "sf.proc.createts" fr))); ("name", EStr (base_name exe)); ("thread", EMap [("id", EInt (iget "sf.proc.tid" fr))]);
   ("parent", EMap [("executable", EStr pexe); ("args", EStr (sget "sf.pproc.args" fr)); ("command_line", EStr (sget "sf.pproc.cmdline" fr));
      ("pid", EInt (iget "sf.pproc.pid" fr)); ("start", EStr (iso (iget "sf.pproc.createts" fr))); ("name", EStr (base_name pexe))])].

(** ecs.go:584-595: fmt's %v of a string is the string. *)
Fixpoint extract_tags (l : list tag) : list string :=
  match l with [] => [] | TagStr s :: l' => s :: extract_tags l' | TagList m :: l' => (m ++ extract_tags l')%list end.
(** utils.go:43-48 *)
Definition max (x y : Z) : Z := if Z.ltb x y then y else x.
(** ecs.go:141-156: the loop over the rules: (reasons, tags, priority). *)
Definition policy_info (tags : list string) (rules : list rmeta) : list string * list string * Z :=
  fold_left (fun acc r => let '(reasons, ts, p) := acc in
               ((reasons ++ [m_name r])%list, (ts ++ extract_tags (m_tags r))%list, max p (Z.of_nat (prio_val (m_prio r)))))
    rules ([], tags, Z.of_nat (prio_val PLow)).
(** ecs.go:141-159: writing to a nil event map panics. *)
Definition add_policy (ctx : context rmeta) (ev : option (gomap eval)) : res (option (gomap eval) * list string) :=
  match ctx_getrules ctx with
  | [] => Ok (ev, ctx_gettags ctx)
  | rules => match ev with
             | None => Panic
             | Some m => let '(reasons, tags, p) := policy_info (ctx_gettags ctx) rules in
                         Ok (Some (mset "severity" (EInt p) (mset "reason" (EStr (join ", " reasons)) m)), tags)
             end
  end.
(** ecs.go:105-161 *)
Definition encode_ecs (version ecsversion : string) (fr : flatrec) (ctx : context rmeta) : res ecsdoc :=
  let t := sget "sf.type" fr in
  let ke := seqb t "KE" in
  let flags := get_int (fr_slots fr) OPFLAGS_INT SYSFLOW_SRC in
  let haspod := negb ke && negb (seqb (sget "sf.pod.id" fr) "") in
  let* (pod, services) := if haspod then let* (p, s) := encode_pod fr in Ok (Some p, s) else Ok (None, []) in
  let rbytes := iget "sf.flow.rbytes" fr in let rops := iget "sf.flow.rops" fr in
  let wbytes := iget "sf.flow.wbytes" fr in let wops := iget "sf.flow.wops" fr in
  let* k8stype := if ke then classify_k8s fr else Ok "" in
  let fc := classify_fileflow flags rbytes rops wbytes wops in
  let '(fcat, ftype, faction, ftarget) := classify_fileevent flags in
  let ptype := classify_process flags (iget "sf.proc.pid" fr) (iget "sf.proc.tid" fr) in
  let '(net, src, dst) := encode_network fr in
  let is s := seqb t s in
  let msg := sget "sf.ke.message" fr in
  let event := if is "NF" then Some (encode_event fr ctx "network" "connection" "network-connection-traffic")
               else if is "FF" then Some (encode_event fr ctx "file" (fst fc) (snd fc))
               else if is "FE" then Some (encode_event fr ctx fcat ftype faction)
               else if is "PE" then Some (encode_event fr ctx "process" ptype ("process-" ++ ptype)%string)
               else if ke then Some (mset "original" (EStr msg) (encode_event fr ctx "orchestration" k8stype (sget "sf.ke.action" fr)))
               else None in
  let* (event, tags) := add_policy ctx event in
  Ok (mkEcs (encode_id fr) (iso (iget "sf.ts" fr)) version ecsversion event (encode_host fr)
       (if ke then None else encode_container fr)
       (if ke then Some (k8s_orchestrator msg) else if haspod then Some (pod_orchestrator fr) else None)
       pod services
       (if is "FF" then Some (encode_file fr)
        else if is "FE" then Some (if ftarget then mset "target_path" (EStr (sget "sf.file.newpath" fr)) (encode_file fr) else encode_file fr)
        else None)
       (if is "FF" then file_action rbytes rops wbytes wops else None)
       (if is "NF" then Some net else None) (if is "NF" then Some src else None) (if is "NF" then Some dst else None)
       (if ke then None else Some (encode_process fr)) (if ke then None else Some (encode_user fr))
       tags).
End Ecs.

(** elastic.go:82-135: a bulk request of create actions; Elasticsearch rejects a document whose identifier exists
    already (409) and the failure is only logged. *)
Definition es_create {A} (index : gomap A) (id : string) (doc : A) : gomap A := if mhas id index then index else mset id doc index.
Definition es_export (index : gomap ecsdoc) (docs : list ecsdoc) : gomap ecsdoc := fold_left (fun ix d => es_create ix (e_id d) d) docs index.
