(** * SpecLine: what the JSON text exported for an event says, in terms of the event and of the entities it was joined with (C116).

    Nothing here mentions the flat record in between, its slots, or the tables of attributes of the encoder. *)
From Verif Require Import GoBase Predicates FlatRecord EngineModel FlattenModel SpecFlatten.
From Verif Require SpecJson.
Import SpecJson (json, JNull, JBool, JNum, JStr, JArr, JObj).
Open Scope string_scope.

(** The names of the types of events. *)
Definition type_names : list (Z * string) := [(4, "PE"); (5, "NF"); (6, "FF"); (7, "FE"); (11, "KE")]%Z.
Definition names_types (X : sfgo_fns) : Prop :=
  forall z t, In t (map snd type_names) -> (trim_bounding_quotes (x_rectype X z) = t <-> In (z, t) type_names).

Section Line.
Variables (X : sfgo_fns) (txt : string -> string) (two_addresses : bool) (x : fctx) (e : fevent).
(** A text of the trace, without quotes around it, and with bytes that are not UTF-8 replaced ([txt]). *)
Definition say (s : string) : json := JStr (txt (trim_bounding_quotes s)).
Definition is_k8s : bool := match e with EvK8s _ => true | _ => false end.
Definition is_net : bool := match e with EvNF _ => true | _ => false end.
Definition is_file : bool := match e with EvFF _ | EvFE _ => true | _ => false end.
Definition is_flow : bool := match e with EvFF _ | EvNF _ => true | _ => false end.
Definition forebears : list process := match ancestors x e with Some l => l | None => [] end.
Definition command (p : process) : string :=
  let args := trim_bounding_quotes (p_exeargs p) in trim_bounding_quotes (p_exe p) ++ (if seqb args "" then "" else " " ++ args).
(** The process that caused the event, and its parent: the identifier of the parent is known from the process itself, the rest only if the parent is
    among the ancestors; otherwise texts are two quotes. *)
Definition truth (f : process -> bool) : json := JBool (match joined e (x_proc x) with Some p => f p | None => false end).
Definition parent_id : option oid := match joined e (x_proc x) with Some p => p_poid p | None => None end.
Definition parent_pid : Z := match parent_id with Some q => hpid q | None => 0%Z end.
Definition parent_since : Z := match parent_id with Some q => createts q | None => 0%Z end.
Definition parent_say (f : process -> string) : json := match parent x e with Some p => say (f p) | None => JStr (txt """""") end.
Definition parent_num (f : process -> Z) : json := match parent x e with Some p => JNum (f p) | None => JNum 0 end.
Definition parent_truth (f : process -> bool) : json := match parent x e with Some p => JBool (f p) | None => JBool false end.

Definition process_part : json := JObj [
  ("acmdline", JArr (map (fun p => JStr (txt (command p))) forebears));
  ("aexe", JArr (map (fun p => say (p_exe p)) forebears));
  ("aname", JArr (map (fun p => say (base_name (p_exe p))) forebears));
  ("apid", JArr (map (fun p => JNum (hpid (p_oid p))) forebears));
  ("args", say (prs x e args));
  ("cmdline", say (prs x e exe ++ " " ++ prs x e args));
  ("createts", JNum (prz x e (fun p => createts (p_oid p))));
  ("entry", truth p_entry);
  ("exe", say (prs x e exe));
  ("gid", JNum (prz x e p_gid));
  ("group", say (prs x e p_groupname));
  ("name", say (base_name (prs x e exe)));
  ("oid", say (x_hashhex X (format_int (prz x e (fun p => hpid (p_oid p))) ++ format_int (prz x e (fun p => createts (p_oid p))))));
  ("pid", JNum (prz x e (fun p => hpid (p_oid p))));
  ("tid", JNum (ev_tid e));
  ("tty", truth p_tty);
  ("uid", JNum (prz x e p_uid));
  ("user", say (prs x e p_username))].
Definition parent_part : json := JObj [
  ("args", parent_say p_exeargs);
  ("cmdline", match parent x e with Some p => JStr (txt (command p)) | None => JStr (txt """""") end);
  ("createts", JNum parent_since);
  ("entry", parent_truth p_entry);
  ("exe", parent_say p_exe);
  ("gid", parent_num p_gid);
  ("group", parent_say p_groupname);
  ("name", parent_say (fun p => base_name (p_exe p)));
  ("oid", say (x_hashhex X (format_int parent_pid ++ format_int parent_since)));
  ("pid", JNum parent_pid);
  ("tty", parent_truth p_tty);
  ("uid", parent_num p_uid);
  ("user", parent_say p_username)].
(** Files.  The path of a second file is given as it is in the trace, with the target of a link. *)
Definition path (o : option ffile) : string := match o with Some f => trim_space (ff_path f) | None => "" end.
Definition id_of (o : option ffile) : string := match o with Some f => hextext (ff_oid f) | None => "" end.
Definition file_part : json := JObj [
  ("directory", say (x_dir X (path_of X (path (thefile x e)))));
  ("fd", JNum (ffl e fl_fd));
  ("is_open_read", JBool (x_isopenread X (ffl e fl_openflags)));
  ("is_open_write", JBool (x_isopenwrite X (ffl e fl_openflags)));
  ("name", say (base_name (path (thefile x e))));
  ("newdirectory", say (x_dir X (path_of X (path (thenewfile x e)))));
  ("newname", say (base_name (path (thenewfile x e))));
  ("newoid", say (id_of (thenewfile x e)));
  ("newpath", say (path (thenewfile x e)));
  ("newsymlink", say (link_of X (path (thenewfile x e))));
  ("oid", say (id_of (thefile x e)));
  ("openflags", JArr (map JStr (x_openflags X (ffl e fl_openflags))));
  ("path", say (path_of X (path (thefile x e))));
  ("symlink", say (link_of X (path (thefile x e))));
  ("type", say (x_filetype X (match thefile x e with Some f => ff_restype f | None => 0%Z end)))].
Definition flow_part : json := JObj [
  ("rbytes", JNum (cnt e nf_rbytes fl_rbytes)); ("rops", JNum (cnt e nf_rops fl_rops));
  ("wbytes", JNum (cnt e nf_wbytes fl_wbytes)); ("wops", JNum (cnt e nf_wops fl_wops))].
Definition net_part : json := JObj [
  ("dip", say (ip X (net e nf_dip)));
  ("dport", JNum (net e nf_dport));
  ("ip", if two_addresses then JArr [JStr (SpecJson.quad (net e nf_sip)); JStr (SpecJson.quad (net e nf_dip))]
         else JArr [JStr (txt (ip X (net e nf_sip) ++ "," ++ ip X (net e nf_dip)))]);
  ("port", JArr [JNum (net e nf_sport); JNum (net e nf_dport)]);
  ("proto", JNum (net e nf_proto));
  ("sip", say (ip X (net e nf_sip)));
  ("sport", JNum (net e nf_sport))].
Definition container_part : json := JObj [
  ("id", say (cs x e fc_id)); ("image", say (cs x e (fun c => trim_space (fc_image c)))); ("imageid", say (cs x e fc_imageid));
  ("name", say (cs x e (fun c => trim_space (fc_name c)))); ("privileged", JNum (cz x e (fun c => if fc_priv c then 1 else 0)%Z));
  ("type", say (x_conttype X (cz x e fc_type)))].
Definition of_pod {A} (f : fpod -> list A) : list A := match joined e (x_pod x) with Some p => f p | None => [] end.
Definition pod_part : json := JObj [
  ("hostip", SpecJson.addresses (of_pod fp_hostip)); ("id", say (ps x e fp_id)); ("internalip", SpecJson.addresses (of_pod fp_internalip));
  ("name", say (ps x e (fun p => trim_space (fp_name p)))); ("namespace", say (ps x e (fun p => trim_space (fp_ns p))));
  ("nodename", say (ps x e (fun p => trim_space (fp_node p)))); ("restartcnt", JNum (pz x e fp_restart));
  ("services", JArr (map (SpecJson.service_value txt) (of_pod fp_services))); ("ts", JNum (pz x e fp_ts))].
Definition k8s_part : json := match e with
  | EvK8s k => JObj [("action", say (x_k8saction X (ke_action k))); ("kind", say (x_k8skind X (ke_kind k))); ("message", say (ke_message k))]
  | _ => JNull end.
Definition node_part : json := JObj [("id", say (hs x fh_exporter)); ("ip", say (hs x fh_ip))].
Definition meta_part : json := JObj [("schema", JNum (hz x fh_version)); ("tracename", say (base_name (hs x fh_filename)))].

Context {R : Type}.
Definition when {A} (b : bool) (a : A) : list A := if b then [a] else [].
(** The whole record: the rules that fired and their tags come last. *)
Definition event_value (version : json) (ctx : context (rule R)) : json :=
  JObj ([("version", version); ("endts", JNum (ev_endts e)); ("opflags", JArr (map JStr (x_opflags X (wrap32 (ev_opflags e)) (x_rectype X (ev_type e)))));
         ("ret", JNum (ev_ret e)); ("ts", JNum (ev_ts e)); ("type", say (x_rectype X (ev_type e)))]
    ++ when (negb (seqb (trim_bounding_quotes (cs x e fc_id)) "")) ("container", container_part)
    ++ when is_file ("file", file_part)
    ++ when is_flow ("flow", flow_part)
    ++ when is_k8s ("k8s", k8s_part)
    ++ [("meta", meta_part)]
    ++ when is_net ("net", net_part)
    ++ [("node", node_part)]
    ++ when (negb (seqb (trim_bounding_quotes (ps x e fp_id)) "")) ("pod", pod_part)
    ++ when (negb is_k8s && negb (Z.eqb parent_pid 0)) ("pproc", parent_part)
    ++ when (negb is_k8s) ("proc", process_part)
    ++ (match ctx_getrules ctx with [] => [] | rs => [("policies", JArr (map (SpecJson.rule_value txt) rs))] end)
    ++ (match SpecJson.all_tags ctx with [] => [] | ts => [("tags", JArr (map (fun t => JStr (txt t)) ts))] end))%list.
End Line.

(** The events whose record is JSON (C64): the ancestry is known, a pod's lists have one element at most. *)
Definition told (x : fctx) (e : fevent) : Prop :=
  match e with
  | EvK8s _ => True
  | _ => x_ptree x <> None /\
         match x_pod x with
         | Some p => trim_bounding_quotes (fp_id p) = "" \/
                     (length (fp_hostip p) <= 1 /\ length (fp_internalip p) <= 1 /\ length (fp_services p) <= 1 /\ forall v, In v (fp_services p) -> length (s_clusterip v) <= 1)
         | None => True
         end
  end.

(** The member of an object with a given name. *)
Definition member (n : string) (v : json) : option json := match v with JObj l => mget n l | _ => None end.
