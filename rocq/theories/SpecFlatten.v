(** * SpecFlatten: what a policy sees of an event, and which events are recent repeats. *)
From Verif Require Import GoBase Predicates FlatRecord FieldTables EngineModel FlattenModel.

(** The bytes of a string in base 16, high digit first. *)
Definition digit16 (n : nat) : ascii := match String.get n "0123456789abcdef" with Some c => c | None => "?"%char end.
Fixpoint hextext (s : string) : string :=
  match s with
  | EmptyString => ""
  | String a s' => String (digit16 (nat_of_ascii a / 16)) (String (digit16 (nat_of_ascii a mod 16)) (hextext s'))
  end.

(** Truth values as numbers. *)
Definition yes (b : bool) : Z := if b then 1%Z else 0%Z.

(** ** Attributes by name, in terms of the event and the entities it was joined with. *)
Section Meaning.
Variable X : sfgo_fns.
Variables (ipstr : Z -> string) (jsonsvcs : list service -> string).
Section Ctx.
Variables (x : fctx) (e : fevent).
(** Addresses, quoted, without separators, in brackets. *)
Definition addresses (l : list Z) : string := ("[" ++ String.concat "" (map (fun a => """" ++ ipstr (wrap32 a) ++ """") l) ++ "]")%string.
(** Absent entities have the empty string and zero in all attributes. *)
Definition hs (f : fheader -> string) : string := match x_hdr x with Some h => f h | None => "" end.
Definition hz (f : fheader -> Z) : Z := match x_hdr x with Some h => f h | None => 0%Z end.
(** Kubernetes events have a header but no container, pod, process and file; only file events and
    file flows have a file, only file events a second one. *)
Definition joined {A} (o : option A) : option A := match e with EvK8s _ => None | _ => o end.
Definition cs (f : fcont -> string) : string := match joined (x_cont x) with Some c => f c | None => "" end.
Definition cz (f : fcont -> Z) : Z := match joined (x_cont x) with Some c => f c | None => 0%Z end.
Definition ps (f : fpod -> string) : string := match joined (x_pod x) with Some c => f c | None => "" end.
Definition pz (f : fpod -> Z) : Z := match joined (x_pod x) with Some c => f c | None => 0%Z end.
Definition prs (f : process -> string) : string := match joined (x_proc x) with Some c => f c | None => "" end.
Definition prz (f : process -> Z) : Z := match joined (x_proc x) with Some c => f c | None => 0%Z end.
Definition thefile : option ffile := match e with EvFF _ | EvFE _ => x_file x | _ => None end.
Definition thenewfile : option ffile := match e with EvFE _ => x_newfile x | _ => None end.
Definition fs (o : option ffile) (f : ffile -> string) : string := match o with Some c => f c | None => "" end.
Definition fz (o : option ffile) (f : ffile -> Z) : Z := match o with Some c => f c | None => 0%Z end.
(** Event attributes. *)
Definition ev_type : Z := match e with EvK8s _ => 11 | EvPE _ => 4 | EvNF _ => 5 | EvFF _ => 6 | EvFE _ => 7 end%Z.
Definition ev_ts : Z := match e with EvK8s k => ke_ts k | EvPE p => pe_ts p | EvNF n => nf_ts n | EvFF f => fl_ts f | EvFE f => fe_ts f end.
Definition ev_tid : Z := match e with EvK8s _ => 0%Z | EvPE p => pe_tid p | EvNF n => nf_tid n | EvFF f => fl_tid f | EvFE f => fe_tid f end.
Definition ev_opflags : Z := match e with EvK8s _ => 0%Z | EvPE p => pe_opflags p | EvNF n => nf_opflags n | EvFF f => fl_opflags f | EvFE f => fe_opflags f end.
Definition ev_ret : Z := match e with EvPE p => pe_ret p | EvFE f => fe_ret f | _ => 0%Z end.
Definition ev_endts : Z := match e with EvFF f => fl_endts f | EvNF n => nf_endts n | EvK8s k => ke_ts k | _ => 0%Z end.
Definition net (f : netflow -> Z) : Z := match e with EvNF n => f n | _ => 0%Z end.
Definition ffl (f : fileflow -> Z) : Z := match e with EvFF n => f n | _ => 0%Z end.
(** Counters of flows, of either kind (as int64). *)
Definition cnt (f : netflow -> Z) (g : fileflow -> Z) : Z := match e with EvNF n => wrap64 (f n) | EvFF n => wrap64 (g n) | _ => 0%Z end.
Definition path_of (s : string) : string := match x_symscan X s with Some (p, _) => p | None => s end.
Definition link_of (s : string) : string := match x_symscan X s with Some (_, l) => l | None => "" end.
Definition ip (z : Z) : string := x_ipstr X (wrap32 z).
Definition ancestors : option (list process) := match e with EvK8s _ => None | _ => x_ptree x end.
(** The parent: the second element of the ancestry, if there is one. *)
Definition parent : option process := match ancestors with Some (_ :: p :: _) => Some p | _ => None end.
Definition pps (f : process -> string) : string := match parent with Some p => f p | None => "" end.
Definition ancs (f : process -> string) : string := match ancestors with Some l => join "," (map f l) | None => "" end.
Definition exe (p : process) : string := trim_space (p_exe p).
Definition args (p : process) : string := trim_space (p_exeargs p).

(** The meaning of every exported attribute. *)
Definition meaning : list (string * gval) := [
  ("sf.type", VStr (x_rectype X ev_type));
  ("sf.opflags", VStr (join "," (x_opflags X (wrap32 ev_opflags) (x_rectype X ev_type))));
  ("sf.ret", VInt ev_ret); ("sf.ts", VInt ev_ts); ("sf.endts", VInt ev_endts);
  ("sf.proc.oid", VStr (x_hashhex X (format_int (prz (fun p => hpid (p_oid p))) ++ format_int (prz (fun p => createts (p_oid p))))%string));
  ("sf.proc.pid", VInt (prz (fun p => hpid (p_oid p))));
  ("sf.proc.name", VStr (base_name (prs exe))); ("sf.proc.exe", VStr (prs exe)); ("sf.proc.args", VStr (prs args));
  ("sf.proc.uid", VInt (prz p_uid)); ("sf.proc.user", VStr (prs p_username)); ("sf.proc.tid", VInt ev_tid);
  ("sf.proc.gid", VInt (prz p_gid)); ("sf.proc.group", VStr (prs p_groupname));
  ("sf.proc.createts", VInt (prz (fun p => createts (p_oid p))));
  ("sf.proc.tty", VInt (prz (fun p => yes (p_tty p)))); ("sf.proc.entry", VInt (prz (fun p => yes (p_entry p))));
  ("sf.proc.cmdline", VStr (prs exe ++ " " ++ prs args)%string);
  ("sf.proc.aname", VStr (ancs (fun p => base_name (p_exe p)))); ("sf.proc.aexe", VStr (ancs p_exe));
  ("sf.proc.acmdline", VStr (ancs cmdline)); ("sf.proc.apid", VStr (ancs (fun p => format_int (hpid (p_oid p)))));
  ("sf.pproc.oid", VStr (x_hashhex X (format_int (prz (fun p => match p_poid p with Some q => hpid q | None => 0%Z end)) ++
                                      format_int (prz (fun p => match p_poid p with Some q => createts q | None => 0%Z end)))%string));
  ("sf.pproc.pid", VInt (prz (fun p => match p_poid p with Some q => hpid q | None => 0%Z end)));
  ("sf.pproc.name", VStr (pps (fun p => base_name (p_exe p)))); ("sf.pproc.exe", VStr (pps p_exe)); ("sf.pproc.args", VStr (pps p_exeargs));
  ("sf.pproc.uid", match parent with Some p => VInt32 (p_uid p) | None => VInt 0 end);
  ("sf.pproc.user", VStr (pps p_username));
  ("sf.pproc.gid", match parent with Some p => VInt32 (p_gid p) | None => VInt 0 end);
  ("sf.pproc.group", VStr (pps p_groupname));
  ("sf.pproc.createts", VInt (prz (fun p => match p_poid p with Some q => createts q | None => 0%Z end)));
  ("sf.pproc.tty", match parent with Some p => VBool (p_tty p) | None => VInt 0 end);
  ("sf.pproc.entry", match parent with Some p => VBool (p_entry p) | None => VInt 0 end);
  ("sf.pproc.cmdline", VStr (pps cmdline));
  ("sf.file.name", VStr (base_name (fs thefile (fun f => trim_space (ff_path f)))));
  ("sf.file.path", VStr (path_of (fs thefile (fun f => trim_space (ff_path f)))));
  ("sf.file.symlink", VStr (link_of (fs thefile (fun f => trim_space (ff_path f)))));
  ("sf.file.oid", VStr (fs thefile (fun f => hextext (ff_oid f))));
  ("sf.file.directory", VStr (x_dir X (path_of (fs thefile (fun f => trim_space (ff_path f))))));
  ("sf.file.newname", VStr (base_name (fs thenewfile (fun f => trim_space (ff_path f)))));
  ("sf.file.newpath", VStr (path_of (fs thenewfile (fun f => trim_space (ff_path f)))));
  ("sf.file.newsymlink", VStr (link_of (fs thenewfile (fun f => trim_space (ff_path f)))));
  ("sf.file.newoid", VStr (fs thenewfile (fun f => hextext (ff_oid f))));
  ("sf.file.newdirectory", VStr (x_dir X (path_of (fs thenewfile (fun f => trim_space (ff_path f))))));
  ("sf.file.type", VStr (x_filetype X (fz thefile ff_restype)));
  ("sf.file.is_open_write", VBool (x_isopenwrite X (ffl fl_openflags)));
  ("sf.file.is_open_read", VBool (x_isopenread X (ffl fl_openflags)));
  ("sf.file.fd", VInt (ffl fl_fd)); ("sf.file.openflags", VStr (join "," (x_openflags X (ffl fl_openflags))));
  ("sf.net.proto", VInt (net nf_proto)); ("sf.net.sport", VInt (net nf_sport)); ("sf.net.dport", VInt (net nf_dport));
  ("sf.net.port", VStr (format_int (net nf_sport) ++ "," ++ format_int (net nf_dport))%string);
  ("sf.net.sip", VStr (ip (net nf_sip))); ("sf.net.dip", VStr (ip (net nf_dip)));
  ("sf.net.ip", VStr (ip (net nf_sip) ++ "," ++ ip (net nf_dip))%string);
  ("sf.flow.rbytes", VInt (cnt nf_rbytes fl_rbytes)); ("sf.flow.rops", VInt (cnt nf_rops fl_rops));
  ("sf.flow.wbytes", VInt (cnt nf_wbytes fl_wbytes)); ("sf.flow.wops", VInt (cnt nf_wops fl_wops));
  ("sf.container.id", VStr (cs fc_id)); ("sf.container.name", VStr (cs (fun c => trim_space (fc_name c))));
  ("sf.container.imageid", VStr (cs fc_imageid)); ("sf.container.image", VStr (cs (fun c => trim_space (fc_image c))));
  ("sf.container.type", VStr (x_conttype X (cz fc_type))); ("sf.container.privileged", VInt (cz (fun c => yes (fc_priv c))));
  ("sf.pod.ts", VInt (pz fp_ts)); ("sf.pod.id", VStr (ps fp_id)); ("sf.pod.name", VStr (ps (fun p => trim_space (fp_name p))));
  ("sf.pod.nodename", VStr (ps (fun p => trim_space (fp_node p)))); ("sf.pod.namespace", VStr (ps (fun p => trim_space (fp_ns p))));
  ("sf.pod.restartcnt", VInt (pz fp_restart));
  ("sf.pod.hostip", VStr (ps (fun p => addresses (fp_hostip p))));
  ("sf.pod.hostip+", VIntArr (match joined (x_pod x) with Some p => Some (fp_hostip p) | None => None end));
  ("sf.pod.internalip", VStr (ps (fun p => addresses (fp_internalip p))));
  ("sf.pod.internalip+", VIntArr (match joined (x_pod x) with Some p => Some (fp_internalip p) | None => None end));
  ("sf.pod.services", VStr (ps (fun p => jsonsvcs (fp_services p))));
  ("sf.pod.services+", VSvcArr (match joined (x_pod x) with Some p => Some (fp_services p) | None => None end));
  ("sf.ke.action", VStr (x_k8saction X (match e with EvK8s k => ke_action k | _ => 0%Z end)));
  ("sf.ke.kind", VStr (x_k8skind X (match e with EvK8s k => ke_kind k | _ => 0%Z end)));
  ("sf.ke.message", VStr (match e with EvK8s k => ke_message k | _ => "" end));
  ("sf.node.id", VStr (hs fh_exporter)); ("sf.node.ip", VStr (hs fh_ip)); ("sf.meta.schema", VInt (hz fh_version));
  ("sf.meta.tracename", VStr (base_name (hs fh_filename)))].
(** What else the record carries, for handlers that read it without the attributes: the states and times of process and
    files, the type of a second file, the descriptor of a network flow, and the containers of process and files. *)
Definition opt (o : option string) : string := match o with Some s => s | None => "" end.
Definition unnamed_numbers : list (iattr * Z) := [
  (PROC_STATE_INT, prz (fun p => Z.of_nat (p_state p))); (PROC_TS_INT, prz p_ts);
  (FILE_STATE_INT, fz thefile ff_state); (FILE_TS_INT, fz thefile ff_ts);
  (SEC_FILE_STATE_INT, fz thenewfile ff_state); (SEC_FILE_TS_INT, fz thenewfile ff_ts); (SEC_FILE_RESTYPE_INT, fz thenewfile ff_restype);
  (FL_NETW_FD_INT, net nf_fd)].
Definition unnamed_texts : list (sattr * string) := [
  (PROC_CONTAINERID_STRING_STR, prs (fun p => opt (p_contid p)));
  (FILE_CONTAINERID_STRING_STR, fs thefile (fun f => opt (ff_contid f)));
  (SEC_FILE_CONTAINERID_STRING_STR, fs thenewfile (fun f => opt (ff_contid f)))].
End Ctx.
End Meaning.

(** ** Aliases: Falco's field names and the attribute each stands for.  [documented] is the last column
    of the table in docs/POLICIES.md:74-135 (without evt.type, "remapped", evt.res, given for three
    attributes, and proc.vpid, an expression), [undocumented] the names the code adds. *)
Definition documented : list (string * string) := [
  ("evt.time", "sf.ts"); ("proc.pid", "sf.proc.pid"); ("thread.tid", "sf.proc.tid"); ("user.uid", "sf.proc.uid"); ("user.name", "sf.proc.user");
  ("group.gid", "sf.proc.gid"); ("group.name", "sf.proc.group"); ("proc.apid", "sf.proc.apid"); ("proc.aname", "sf.proc.aname");
  ("proc.exe", "sf.proc.exe"); ("proc.args", "sf.proc.args"); ("proc.name", "sf.proc.name"); ("proc.cmdline", "sf.proc.cmdline");
  ("proc.tty", "sf.proc.tty"); ("proc.ppid", "sf.pproc.pid"); ("proc.pname", "sf.pproc.name"); ("proc.pcmdline", "sf.pproc.cmdline");
  ("fd.num", "sf.file.fd"); ("fd.name", "sf.file.path"); ("fd.filename", "sf.file.name"); ("fd.directory", "sf.file.directory");
  ("fd.typechar", "sf.file.type"); ("evt.is_open_write", "sf.file.is_open_write"); ("evt.is_open_read", "sf.file.is_open_read");
  ("evt.args", "sf.file.openflags"); ("fd.l4proto", "sf.net.proto"); ("fd.sport", "sf.net.sport"); ("fd.dport", "sf.net.dport");
  ("fd.port", "sf.net.port"); ("fd.sip", "sf.net.sip"); ("fd.dip", "sf.net.dip"); ("fd.ip", "sf.net.ip");
  ("container.id", "sf.container.id"); ("container.name", "sf.container.name"); ("container.image.id", "sf.container.imageid");
  ("container.image", "sf.container.image"); ("container.type", "sf.container.type"); ("container.privileged", "sf.container.privileged")].
Definition undocumented : list (string * string) := [
  ("evt.type", "sf.opflags"); ("evt.rawtime", "sf.ts"); ("evt.arg.uid", "sf.proc.uid"); ("fd.proto", "sf.net.proto"); ("fd.lproto", "sf.net.proto");
  ("fd.rproto", "sf.net.proto"); ("fd.sproto", "sf.net.proto"); ("fd.cproto", "sf.net.proto"); ("proc.tid", "sf.proc.tid"); ("proc.gid", "sf.proc.gid");
  ("proc.uid", "sf.proc.uid"); ("proc.group", "sf.proc.group"); ("proc.user", "sf.proc.user"); ("proc.createtime", "sf.proc.createts");
  ("proc.pgid", "sf.pproc.gid"); ("proc.puid", "sf.pproc.uid"); ("proc.pgroup", "sf.pproc.group"); ("proc.ptty", "sf.pproc.tty"); ("proc.puser", "sf.pproc.user");
  ("proc.pexe", "sf.pproc.exe"); ("proc.pargs", "sf.pproc.args"); ("proc.pcreatetime", "sf.pproc.createts")].
(** Names with another meaning than the documented or expected one, and documented names that are not
    attributes at all. *)
Definition misdirected : list (string * string) := [("fd.name", "sf.file.name"); ("proc.tty", "sf.pproc.tty"); ("proc.createtime", "sf.pproc.createts"); ("evt.rawres", "sf.type")].
Definition unsupported : list string := ["evt.time"; "thread.tid"; "user.uid"; "group.gid"; "group.name"; "evt.args"; "evt.res"; "proc.vpid";
  "sf.res"; "sf.container.image.id"; "sf.schema.version"; "sf.version"].
Definition aliases : list (string * string) :=
  List.filter (fun p => negb (existsb (seqb (fst p)) (map fst misdirected ++ unsupported))) (documented ++ undocumented).

(** ** The rate filter *)
(** The event at position [j] of a history, let through or not, at time [t]. *)
Definition happened (tr : list entry) (j : nat) (h : Z) (suppressed : bool) (t : Z) : Prop :=
  nth_error tr j = Some (Some (h, suppressed, t)).
(** A repeat of an event let through less than [ttl] earlier. *)
Definition recent_repeat (ttl : Z) (tr : list entry) (j : nat) (h t : Z) : Prop :=
  exists i t', i < j /\ happened tr i h false t' /\ (t - t' < ttl)%Z.
(** How often [h] occurs in a history. *)
Fixpoint occurrences (h : Z) (tr : list entry) : Z :=
  match tr with
  | [] => 0
  | Some (h', _, _) :: tr' => (if Z.eqb h' h then 1 else 0) + occurrences h tr'
  | None :: tr' => occurrences h tr'
  end.
(** The records of a list whose verdict is not "suppressed". *)
Fixpoint kept {A} (l : list A) (tr : list entry) : list A :=
  match l, tr with
  | a :: l', Some (_, true, _) :: tr' => kept l' tr'
  | a :: l', _ :: tr' => a :: kept l' tr'
  | _, _ => []
  end.
(** What the hash is to distinguish. *)
Record semantics := mkSem { sm_exe : string; sm_args : string; sm_uid : Z; sm_gid : Z; sm_flags : Z; sm_tty : Z;
  sm_net : option (Z * Z * Z * Z); sm_path : option string }.
Definition semantics_of (x : fctx) (e : fevent) : semantics :=
  mkSem (prs x e exe) (prs x e args) (prz x e p_uid) (prz x e p_gid) (ev_opflags e) (prz x e (fun p => yes (p_tty p)))
    (match e with EvNF n => Some (nf_sip n, nf_dip n, nf_dport n, nf_proto n) | _ => None end)
    (match e with EvFF _ | EvFE _ => Some (fs (x_file x) (fun f => trim_space (ff_path f))) | _ => None end).
(** Ranges, and records with the same parts. *)
Definition int64s (m : semantics) : Prop :=
  in_int64 (sm_uid m) = true /\ in_int64 (sm_gid m) = true /\ in_int64 (sm_flags m) = true /\ in_int64 (sm_tty m) = true /\
  match sm_net m with Some (a, b, c, d) => in_int64 a = true /\ in_int64 b = true /\ in_int64 c = true /\ in_int64 d = true | None => True end.
Definition same_shape (m n : semantics) : Prop :=
  (sm_net m = None <-> sm_net n = None) /\ (sm_path m = None <-> sm_path n = None).

(** The hash a trace entry is about; the hash with which an event consults the filter (none for
    Kubernetes events). *)
Definition hash_of (e : entry) : option Z := match e with Some (h, _, _) => Some h | None => None end.
Definition consults ipstr jsonsvcs (hash : flatrec -> Z) (xe : fctx * fevent) : option Z :=
  match snd xe with EvK8s _ => None | _ => Some (hash (flatten ipstr jsonsvcs (fst xe) (snd xe))) end.
