(** * SpecEcs: the ECS document of an event, in terms of the event and the entities it was joined with. *)
From Verif Require Import GoBase Predicates FlatRecord EngineModel EngineFlat FlattenModel SpecFlatten EcsModel.
Local Open Scope Z_scope.

(** ** Operations of an event *)
(** [flags] says that the event is (among others) an operation of kind [o]. *)
Definition does (E : ecs_fns) (flags : Z) (o : op) : Prop := Z.testbit flags (op_bit E o) = true.
(** File events: category, type, action, and whether the event has a target; of several operations the first of
    mkdir, rmdir, unlink, symlink or link, rename counts. *)
Inductive file_class (E : ecs_fns) (flags : Z) : string -> string -> string -> bool -> Prop :=
| fc_mkdir : does E flags OpMkdir -> file_class E flags "directory" "creation" "directory-create" false
| fc_rmdir : ~ does E flags OpMkdir -> does E flags OpRmdir -> file_class E flags "directory" "deletion" "directory-delete" false
| fc_unlink : ~ does E flags OpMkdir -> ~ does E flags OpRmdir -> does E flags OpUnlink -> file_class E flags "file" "deletion" "file-delete" false
| fc_link : ~ does E flags OpMkdir -> ~ does E flags OpRmdir -> ~ does E flags OpUnlink -> does E flags OpSymlink \/ does E flags OpLink ->
    file_class E flags "file" "change" "file-link" true
| fc_rename : ~ does E flags OpMkdir -> ~ does E flags OpRmdir -> ~ does E flags OpUnlink -> ~ does E flags OpSymlink -> ~ does E flags OpLink ->
    does E flags OpRename -> file_class E flags "file" "change" "file-rename" true
| fc_other : ~ does E flags OpMkdir -> ~ does E flags OpRmdir -> ~ does E flags OpUnlink -> ~ does E flags OpSymlink -> ~ does E flags OpLink ->
    ~ does E flags OpRename -> file_class E flags "file" "change" "file-change" false.
(** Process events: exit before clone and exec before setuid; a thread is a task whose identifier is not the process's. *)
Inductive process_class (E : ecs_fns) (flags pid tid : Z) : string -> Prop :=
| pc_exit : does E flags OpExit -> pid = tid -> process_class E flags pid tid "exit"
| pc_texit : does E flags OpExit -> pid <> tid -> process_class E flags pid tid "thread-exit"
| pc_start : ~ does E flags OpExit -> does E flags OpClone \/ does E flags OpExec -> pid = tid -> process_class E flags pid tid "start"
| pc_tstart : ~ does E flags OpExit -> does E flags OpClone \/ does E flags OpExec -> pid <> tid -> process_class E flags pid tid "thread-start"
| pc_setuid : ~ does E flags OpExit -> ~ does E flags OpClone -> ~ does E flags OpExec -> does E flags OpSetuid -> process_class E flags pid tid "change"
| pc_other : ~ does E flags OpExit -> ~ does E flags OpClone -> ~ does E flags OpExec -> ~ does E flags OpSetuid -> process_class E flags pid tid "start".
(** File flows: type and action; an operation counts only if it moved bytes or was counted. *)
Definition did (E : ecs_fns) (flags : Z) (o : op) (bytes ops : Z) : Prop := does E flags o /\ (0 < bytes \/ 0 < ops).
Inductive flow_class (E : ecs_fns) (flags rbytes rops wbytes wops : Z) : string -> string -> Prop :=
| ff_none : ~ did E flags OpReadRecv rbytes rops -> ~ did E flags OpWriteSend wbytes wops -> flow_class E flags rbytes rops wbytes wops "access" "file-access"
| ff_read : did E flags OpReadRecv rbytes rops -> ~ did E flags OpWriteSend wbytes wops -> flow_class E flags rbytes rops wbytes wops "access" "file-access-read"
| ff_write : ~ did E flags OpReadRecv rbytes rops -> did E flags OpWriteSend wbytes wops -> flow_class E flags rbytes rops wbytes wops "change" "file-access-write"
| ff_both : did E flags OpReadRecv rbytes rops -> did E flags OpWriteSend wbytes wops -> flow_class E flags rbytes rops wbytes wops "change" "file-access-read-write".
(** Kubernetes events. *)
Inductive k8s_class (E : ecs_fns) (action : Z) : string -> Prop :=
| kc_added : action = k8s_added E -> k8s_class E action "creation"
| kc_deleted : action = k8s_deleted E -> k8s_class E action "deletion"
| kc_modified : action = k8s_modified E -> k8s_class E action "change"
| kc_error : action = k8s_error E -> k8s_class E action "error"
| kc_other : action <> k8s_added E -> action <> k8s_deleted E -> action <> k8s_modified E -> action <> k8s_error E -> k8s_class E action "info".
(** Category, type and action of an event. *)
Inductive classified (X : sfgo_fns) (E : ecs_fns) (x : fctx) : fevent -> string -> string -> string -> Prop :=
| cl_nf n : classified X E x (EvNF n) "network" "connection" "network-connection-traffic"
| cl_ff n ty ac : flow_class E (fl_opflags n) (wrap64 (fl_rbytes n)) (wrap64 (fl_rops n)) (wrap64 (fl_wbytes n)) (wrap64 (fl_wops n)) ty ac ->
    classified X E x (EvFF n) "file" ty ac
| cl_fe n cat ty ac tg : file_class E (fe_opflags n) cat ty ac tg -> classified X E x (EvFE n) cat ty ac
| cl_pe n ty : process_class E (pe_opflags n) (match x_proc x with Some p => hpid (p_oid p) | None => 0 end) (pe_tid n) ty ->
    classified X E x (EvPE n) "process" ty ("process-" ++ ty)
| cl_ke k ty : k8s_class E (wrap32 (ke_action k)) ty -> classified X E x (EvK8s k) "orchestration" ty (trim_bounding_quotes (x_k8saction X (ke_action k))).

(** ** Sections of the document *)
Section Doc.
Variables (X : sfgo_fns) (E : ecs_fns) (x : fctx) (e : fevent).
(** Texts lose a quote at either end. *)
Definition t (s : string) : eval := EStr (trim_bounding_quotes s).
Definition addr (z : Z) : eval := EStr (trim_bounding_quotes (x_ipstr X (wrap32 z))).
(** An instant, from nanoseconds since the epoch. *)
Definition at_ns (ts : Z) : eval := EStr (x_time E (Z.quot ts 1000000000) (Z.rem ts 1000000000)).
Definition when (b : bool) (k : string) (v : eval) : list (string * eval) := if b then [(k, v)] else [].
Definition nonempty (s : string) : bool := negb (String.eqb (trim_bounding_quotes s) "").
Definition doc_host : list (string * eval) := [("id", t (hs x fh_exporter)); ("ip", t (hs x fh_ip))].
Definition doc_container (c : fcont) : list (string * eval) :=
  [("id", t (fc_id c)); ("runtime", t (x_conttype X (fc_type c))); ("sf_privileged", EBool (fc_priv c)); ("name", t (trim_space (fc_name c)))]
  ++ when (nonempty (fc_imageid c)) "image" (EMap [("id", t (fc_imageid c)); ("name", t (trim_space (fc_image c)))]).
Definition doc_user : list (string * eval) :=
  [("group", EMap (("id", EInt (prz x e p_gid)) :: when (nonempty (prs x e p_groupname)) "name" (t (prs x e p_groupname)))); ("id", EInt (prz x e p_uid))]
  ++ when (nonempty (prs x e p_username)) "name" (t (prs x e p_username)).
(** The parent's identifiers come from the process, its texts from the ancestry. *)
Definition doc_process : list (string * eval) :=
  let poid f := prz x e (fun p => match p_poid p with Some q => f q | None => 0 end) in
  [("executable", t (prs x e exe)); ("args", t (prs x e args)); ("command_line", t (prs x e exe ++ " " ++ prs x e args));
   ("pid", EInt (prz x e (fun p => hpid (p_oid p)))); ("start", at_ns (prz x e (fun p => createts (p_oid p))));
   ("name", EStr (base_name (trim_bounding_quotes (prs x e exe)))); ("thread", EMap [("id", EInt (ev_tid e))]);
   ("parent", EMap [("executable", t (pps x e p_exe)); ("args", t (pps x e p_exeargs)); ("command_line", t (pps x e cmdline));
      ("pid", EInt (poid hpid)); ("start", at_ns (poid createts)); ("name", EStr (base_name (trim_bounding_quotes (pps x e p_exe))))])].
Definition doc_orchestrator (ns ty name : eval) : list (string * eval) := [("namespace", ns); ("resource", EMap [("type", ty); ("name", name)]); ("type", EStr "kubernetes")].
Definition doc_pod (p : fpod) : list (string * eval) :=
  let addrs l := EList (map (fun ip => EStr (x_ipstr X (wrap32 ip))) l) in
  [("ts", at_ns (fp_ts p)); ("id", t (fp_id p)); ("name", t (trim_space (fp_name p))); ("nodename", t (trim_space (fp_node p)));
   ("namespace", t (trim_space (fp_ns p))); ("hostip", addrs (fp_hostip p)); ("internalip", addrs (fp_internalip p)); ("restartcnt", EInt (fp_restart p))].
Definition doc_service (s : service) : list (string * eval) :=
  [("id", EStr (s_id s)); ("name", EStr (s_name s)); ("namespace", EStr (s_namespace s));
   ("clusterip", EList (map (fun ip => EStr (x_ipstr X (wrap32 ip))) (s_clusterip s)));
   ("ports", EList (map (fun p => EMap [("port", EInt (p_port p)); ("targetport", EInt (p_target p)); ("nodeport", EInt (p_node p)); ("proto", EStr (p_proto p))]) (s_ports s)))].
(** The network flow: both ends, with the bytes and operations each sent. *)
Definition doc_source (n : netflow) : list (string * eval) :=
  [("ip", addr (nf_sip n)); ("port", EInt (nf_sport n)); ("address", addr (nf_sip n)); ("bytes", EInt (wrap64 (nf_wbytes n))); ("packets", EInt (wrap64 (nf_wops n)))].
Definition doc_destination (n : netflow) : list (string * eval) :=
  [("ip", addr (nf_dip n)); ("port", EInt (nf_dport n)); ("address", addr (nf_dip n)); ("bytes", EInt (wrap64 (nf_rbytes n))); ("packets", EInt (wrap64 (nf_rops n)))].
Definition doc_network (n : netflow) : list (string * eval) :=
  [("bytes", EInt (wrap64 (wrap64 (nf_rbytes n) + wrap64 (nf_wbytes n))));
   ("community_id", EStr (x_cid E (trim_bounding_quotes (x_ipstr X (wrap32 (nf_sip n)))) (trim_bounding_quotes (x_ipstr X (wrap32 (nf_dip n))))
                             (nf_sport n mod 65536) (nf_dport n mod 65536) (nf_proto n mod 256)));
   ("iana_number", EStr (format_int (nf_proto n))); ("protocol", EStr (x_proto E (nf_proto n)))].
(** The file: a directory has only its path; another file its name, directory and, if different from the name, its path.
    Without a path, the file is named by the descriptor. *)
Definition type_name (ft : string) : string :=
  match find (fun p => String.eqb (fst p) ft) [("f", "file"); ("d", "dir"); ("u", "socket"); ("p", "pipe")] with Some p => snd p | None => "unknown" end.
Definition doc_file (newtarget : bool) : list (string * eval) :=
  let path := trim_bounding_quotes (path_of X (fs (thefile x e) (fun f => trim_space (ff_path f)))) in
  let fd := ffl e fl_fd in
  let ty := if Z.testbit (ev_opflags e) (op_bit E OpSymlink) then "symlink" else type_name (trim_bounding_quotes (x_filetype X (fz (thefile x e) ff_restype))) in
  let full := if String.eqb path "" then ("/proc/" ++ format_int (prz x e (fun p => hpid (p_oid p))) ++ "/fd/" ++ format_int fd)%string else path in
  let name := if String.eqb path "" then format_int fd else base_name path in
  (("type", EStr ty) :: (if String.eqb ty "dir" then [("directory", EStr full)]
                         else [("name", EStr name); ("directory", EStr (x_dir X full))] ++ when (negb (String.eqb full name)) "path" (EStr full)))
  ++ when newtarget "target_path" (t (path_of X (fs (thenewfile x e) (fun f => trim_space (ff_path f))))).
Definition doc_fileaction (n : fileflow) : option (list (string * eval)) :=
  if Z.ltb 0 (wrap64 (fl_rbytes n)) || Z.ltb 0 (wrap64 (fl_rops n)) || Z.ltb 0 (wrap64 (fl_wbytes n)) || Z.ltb 0 (wrap64 (fl_wops n))
  then Some [("bytes_read", EInt (wrap64 (fl_rbytes n))); ("read_ops", EInt (wrap64 (fl_rops n))); ("bytes_written", EInt (wrap64 (fl_wbytes n))); ("write_ops", EInt (wrap64 (fl_wops n)))]
  else None.
(** Flows and Kubernetes events end at their end time, when that is not zero, others where they start. *)
Definition ends : Z := if Z.eqb (ev_endts e) 0 then ev_ts e else ev_endts e.
Definition doc_event (cat ty ac : string) (alert : bool) : list (string * eval) :=
  [("category", EStr cat); ("type", EStr ty); ("action", EStr ac); ("sf_type", t (x_rectype X (ev_type e))); ("start", at_ns (ev_ts e)); ("end", at_ns ends);
   ("duration", EInt (wrap64 (ends - ev_ts e))); ("kind", EStr (if alert then "alert" else "event"))]
  ++ match e with EvPE _ | EvFE _ => [("sf_ret", EInt (ev_ret e))] | EvK8s k => [("original", t (ke_message k))] | _ => [] end.
(** The policies matched. *)
Definition all_names (rs : list rmeta) : string := String.concat ", " (map m_name rs).
(** How severe a priority is. *)
Definition rank (p : priority) : Z :=
  match p with PInformational => 0 | PLow => 1 | PMedium => 2 | PHigh => 3 | PCritical => 4 end%Z.
Definition severity_of (rs : list rmeta) (s : Z) : Prop :=
  1 <= s /\ (forall r, In r rs -> rank (m_prio r) <= s) /\ (s = 1 \/ exists r, In r rs /\ rank (m_prio r) = s).
Definition tag_texts (r : rmeta) : list string := flat_map (fun tg => match tg with TagStr s => [s] | TagList l => l end) (m_tags r).
(** sfgo's names of the record types. *)
Definition type_names : Prop :=
  x_rectype X 4 = "PE" /\ x_rectype X 5 = "NF" /\ x_rectype X 6 = "FF" /\ x_rectype X 7 = "FE" /\ x_rectype X 11 = "KE".
End Doc.

(** ** The whole document *)
Definition same (o : option (gomap eval)) (l : option (list (string * eval))) : Prop :=
  match o, l with Some m, Some l => forall k, mget k m = mget k l | None, None => True | _, _ => False end.
Record describes (X : sfgo_fns) (E : ecs_fns) (version ecsversion : string) (x : fctx) (e : fevent) (ctx : context rmeta) (d : ecsdoc) : Prop := {
  d_ts : EStr (e_ts d) = at_ns E (ev_ts e);
  d_version : e_agent_version d = version /\ e_ecs_version d = ecsversion;
  d_host : same (Some (e_host d)) (Some (doc_host x));
  d_container : same (e_container d) (match joined e (x_cont x) with Some c => if nonempty (fc_id c) then Some (doc_container X c) else None | None => None end);
  d_user : same (e_user d) (match e with EvK8s _ => None | _ => Some (doc_user x e) end);
  d_process : same (e_process d) (match e with EvK8s _ => None | _ => Some (doc_process E x e) end);
  d_orch : same (e_orch d)
    (match e with
     | EvK8s k => let m := trim_bounding_quotes (ke_message k) in
         Some (doc_orchestrator (EStr (x_gjson X m "items.0.namespace")) (EStr (x_lower E (x_gjson X m "kind"))) (EStr (x_gjson X m "items.0.name")))
     | _ => match x_pod x with
            | Some p => if nonempty (fp_id p) then Some (doc_orchestrator (t (trim_space (fp_ns p))) (EStr "pod") (t (trim_space (fp_name p)))) else None
            | None => None end
     end);
  d_pod : same (e_pod d) (match joined e (x_pod x) with Some p => if nonempty (fp_id p) then Some (doc_pod X E p) else None | None => None end);
  d_service : e_service d = match joined e (x_pod x) with Some p => if nonempty (fp_id p) then map (doc_service X) (fp_services p) else [] | None => [] end;
  d_network : match e with
              | EvNF n => same (e_network d) (Some (doc_network X E n)) /\ same (e_source d) (Some (doc_source X n)) /\ same (e_destination d) (Some (doc_destination X n))
              | _ => e_network d = None /\ e_source d = None /\ e_destination d = None
              end;
  d_file : match e with
           | EvFF n => same (e_file d) (Some (doc_file X E x e false)) /\ same (e_fileaction d) (doc_fileaction n)
           | EvFE n => (exists cat ty ac tg, file_class E (fe_opflags n) cat ty ac tg /\ same (e_file d) (Some (doc_file X E x e tg))) /\ e_fileaction d = None
           | _ => e_file d = None /\ e_fileaction d = None
           end;
  d_event : exists cat ty ac m, classified X E x e cat ty ac /\ e_event d = Some m /\
    (forall k, k <> "reason" -> k <> "severity" -> mget k m = mget k (doc_event X E e cat ty ac (ctx_isalert ctx)));
  d_policy : exists m, e_event d = Some m /\
    match ctx_getrules ctx with
    | [] => mget "reason" m = None /\ mget "severity" m = None
    | rs => mget "reason" m = Some (EStr (all_names rs)) /\ exists s, mget "severity" m = Some (EInt s) /\ severity_of rs s
    end;
  d_tags : e_tags d = (ctx_gettags ctx ++ flat_map tag_texts (ctx_getrules ctx))%list
}.

(** ** Document identifiers: what is to distinguish two documents. *)
Record identity := mkIdent { n_node : string; n_cont : string; n_ts : Z; n_tid : Z; n_created : Z; n_flags : Z; n_rest : string }.
Definition identity_of (x : fctx) (e : fevent) : identity :=
  mkIdent (trim_bounding_quotes (hs x fh_exporter)) (trim_bounding_quotes (cs x e fc_id)) (ev_ts e) (ev_tid e) (prz x e (fun p => createts (p_oid p))) (ev_opflags e)
    (match e with
     | EvFF _ | EvFE _ => trim_bounding_quotes (fs (thefile x e) (fun f => hextext (ff_oid f)))
     | EvNF n => (le64 (nf_sip n) ++ le64 (nf_sport n) ++ le64 (nf_dip n) ++ le64 (nf_dport n) ++ le64 (nf_proto n))%string
     | EvK8s k => (le64 (ke_action k) ++ le64 (ke_kind k) ++ trim_bounding_quotes (ke_message k))%string
     | EvPE _ => ""
     end).
