(** * SpecJson: JSON texts (RFC 8259, without optional white space), and the value an exported record denotes. *)
From Verif Require Import GoBase Predicates FlatRecord FieldTables.
Open Scope string_scope.

(** ** UTF-8 *)
(** Unicode scalar values and their encoding (RFC 3629). *)
Definition scalar (cp : Z) : Prop := (0 <= cp < 55296 \/ 57344 <= cp < 1114112)%Z.
Definition chr (z : Z) : ascii := ascii_of_nat (Z.to_nat z).
Definition utf8 (cp : Z) : string :=
  (if Z.ltb cp 128 then String (chr cp) ""
   else if Z.ltb cp 2048 then String (chr (192 + cp / 64)) (String (chr (128 + cp mod 64)) "")
   else if Z.ltb cp 65536 then
     String (chr (224 + cp / 4096)) (String (chr (128 + cp / 64 mod 64)) (String (chr (128 + cp mod 64)) ""))
   else String (chr (240 + cp / 262144)) (String (chr (128 + cp / 4096 mod 64))
          (String (chr (128 + cp / 64 mod 64)) (String (chr (128 + cp mod 64)) ""))))%Z.
(** [valid s]: a sequence of encoded scalar values. *)
Inductive valid : string -> Prop :=
| v_nil : valid ""
| v_cons cp s : scalar cp -> valid s -> valid (utf8 cp ++ s).
(** [clean s t]: [t] is [s] with every byte that does not start an encoded scalar value replaced by U+FFFD. *)
Inductive clean : string -> string -> Prop :=
| cl_nil : clean "" ""
| cl_cp cp s t : scalar cp -> clean s t -> clean (utf8 cp ++ s) (utf8 cp ++ t)
| cl_bad c s t : (forall cp r, scalar cp -> String c s <> utf8 cp ++ r) -> clean s t -> clean (String c s) (utf8 65533 ++ t).

(** ** Strings *)
Definition hexval (c : ascii) : option Z :=
  let n := Z.of_nat (nat_of_ascii c) in
  (if Z.leb 48 n && Z.leb n 57 then Some (n - 48)
   else if Z.leb 65 n && Z.leb n 70 then Some (n - 55)
   else if Z.leb 97 n && Z.leb n 102 then Some (n - 87)
   else None)%Z.
(** The two-character escapes and what they stand for. *)
Definition short_escapes : list (ascii * Z) :=
  [(""""%char, 34%Z); ("\"%char, 92%Z); ("/"%char, 47%Z); ("b"%char, 8%Z); ("f"%char, 12%Z); ("n"%char, 10%Z); ("r"%char, 13%Z); ("t"%char, 9%Z)].
(** [jstr b t]: what stands between the quotes, [b], denotes the text [t]. *)
Inductive jstr : string -> string -> Prop :=
| js_nil : jstr "" ""
| js_char cp b t : scalar cp -> (32 <= cp)%Z -> cp <> 34%Z -> cp <> 92%Z -> jstr b t -> jstr (utf8 cp ++ b) (utf8 cp ++ t)
| js_short c cp b t : In (c, cp) short_escapes -> jstr b t -> jstr (String "\" (String c b)) (utf8 cp ++ t)
| js_hex c1 c2 c3 c4 h1 h2 h3 h4 b t :
    hexval c1 = Some h1 -> hexval c2 = Some h2 -> hexval c3 = Some h3 -> hexval c4 = Some h4 ->
    scalar (((h1 * 16 + h2) * 16 + h3) * 16 + h4)%Z -> jstr b t ->
    jstr ("\u" ++ String c1 (String c2 (String c3 (String c4 b)))) (utf8 (((h1 * 16 + h2) * 16 + h3) * 16 + h4)%Z ++ t).

(** ** Values *)
Inductive json := JNull | JBool (b : bool) | JNum (z : Z) | JStr (t : string) | JArr (l : list json) | JObj (l : list (string * json)).
(** [jtext s v]: the text [s] denotes the value [v].  Numbers are whole. *)
Inductive jtext : string -> json -> Prop :=
| jt_null : jtext "null" JNull
| jt_true : jtext "true" (JBool true)
| jt_false : jtext "false" (JBool false)
| jt_num z : jtext (format_int z) (JNum z)
| jt_str b t : jstr b t -> jtext ("""" ++ b ++ """") (JStr t)
| jt_arr0 : jtext "[]" (JArr [])
| jt_arr s l : elements s l -> jtext ("[" ++ s ++ "]") (JArr l)
| jt_obj0 : jtext "{}" (JObj [])
| jt_obj s l : members s l -> jtext ("{" ++ s ++ "}") (JObj l)
with elements : string -> list json -> Prop :=
| el_one s v : jtext s v -> elements s [v]
| el_cons s v s' l : jtext s v -> elements s' l -> elements (s ++ "," ++ s') (v :: l)
with members : string -> list (string * json) -> Prop :=
| mb_one b k s v : jstr b k -> jtext s v -> members ("""" ++ b ++ """:" ++ s) [(k, v)]
| mb_cons b k s v s' l : jstr b k -> jtext s v -> members s' l -> members ("""" ++ b ++ """:" ++ s ++ "," ++ s') ((k, v) :: l).
(** No two members with the same name, at any depth. *)
Inductive unique : json -> Prop :=
| un_null : unique JNull
| un_bool b : unique (JBool b)
| un_num z : unique (JNum z)
| un_str t : unique (JStr t)
| un_arr l : Forall unique l -> unique (JArr l)
| un_obj l : NoDup (map fst l) -> Forall (fun kv => unique (snd kv)) l -> unique (JObj l).

(** ** The value of a record *)
Section Value.
Variable X : sfgo_fns.
(** What becomes of a text that is not UTF-8: see [clean]. *)
Variable txt : string -> string.
(** Whether sf.net.ip is written as two addresses (see JsonModel.sip_alias). *)
Variable two_addresses : bool.
Definition text (s : string) : json := JStr (txt (trim_bounding_quotes s)).
(** The four bytes of an address, lowest first. *)
Definition quad (ip : Z) : string :=
  (format_int (ip mod 256) ++ "." ++ format_int (ip / 256 mod 256) ++ "." ++ format_int (ip / 65536 mod 256) ++ "." ++ format_int (ip / 16777216 mod 256)).
Definition addresses (l : list Z) : json := JArr (map (fun ip => JStr (quad ip)) l).
Definition port_value (p : port) : json :=
  JObj [("port", JNum (p_port p)); ("targetport", JNum (p_target p)); ("nodeport", JNum (p_node p)); ("proto", JStr (txt (p_proto p)))].
Definition service_value (s : service) : json :=
  JObj [("id", JStr (txt (s_id s))); ("name", JStr (txt (s_name s))); ("namespace", JStr (txt (s_namespace s)));
        ("clusterIP", addresses (s_clusterip s)); ("ports", JArr (map port_value (s_ports s)))].
Definition cmd (p : process) : string :=
  let args := trim_bounding_quotes (p_exeargs p) in
  trim_bounding_quotes (p_exe p) ++ (if seqb args "" then "" else " " ++ args).
Definition ancestors (fr : flatrec) : list process := match fr_ptree fr with Some ps => ps | None => [] end.
Definition parent (fr : flatrec) : option process := nth_error (ancestors fr) 1.
(** A text attribute of the parent process; without a parent, the encoder writes a text of two quotes. *)
Definition ptext (fr : flatrec) (f : process -> string) : json :=
  match parent fr with Some p => text (f p) | None => JStr (txt """""") end.
Definition pnum (fr : flatrec) (f : process -> Z) : json := match parent fr with Some p => JNum (f p) | None => JNum 0 end.
Definition pbool (fr : flatrec) (f : process -> bool) : json := match parent fr with Some p => JBool (f p) | None => JBool false end.
Definition ints (fr : flatrec) (a : iattr) : Z := get_int (fr_slots fr) a SYSFLOW_SRC.

(** The attributes written other than as their plain value. *)
Definition special (fr : flatrec) : list (string * json) :=
  [("sf.opflags", JArr (map JStr (x_opflags X (wrap32 (ints fr OPFLAGS_INT)) (x_rectype X (ints fr SF_REC_TYPE)))));
   ("sf.file.openflags", JArr (map JStr (x_openflags X (ints fr FL_FILE_OPENFLAGS_INT))));
   ("sf.file.newpath", text (get_str (fr_slots fr) SEC_FILE_PATH_STR SYSFLOW_SRC));
   ("sf.net.port", JArr [JNum (ints fr FL_NETW_SPORT_INT); JNum (ints fr FL_NETW_DPORT_INT)]);
   ("sf.net.ip", if two_addresses then addresses [ints fr FL_NETW_SIP_INT; ints fr FL_NETW_DIP_INT]
                 else JArr [JStr (txt (x_ipstr X (wrap32 (ints fr FL_NETW_SIP_INT)) ++ "," ++ x_ipstr X (wrap32 (ints fr FL_NETW_DIP_INT))))]);
   ("sf.proc.tty", JBool (Z.eqb (ints fr PROC_TTY_INT) 1));
   ("sf.proc.entry", JBool (Z.eqb (ints fr PROC_ENTRY_INT) 1));
   ("sf.proc.aname", JArr (map (fun p => text (base_name (p_exe p))) (ancestors fr)));
   ("sf.proc.aexe", JArr (map (fun p => text (p_exe p)) (ancestors fr)));
   ("sf.proc.acmdline", JArr (map (fun p => JStr (txt (cmd p))) (ancestors fr)));
   ("sf.proc.apid", JArr (map (fun p => JNum (hpid (p_oid p))) (ancestors fr)));
   ("sf.pproc.name", ptext fr (fun p => base_name (p_exe p)));
   ("sf.pproc.exe", ptext fr p_exe);
   ("sf.pproc.args", ptext fr p_exeargs);
   ("sf.pproc.uid", pnum fr p_uid);
   ("sf.pproc.user", ptext fr p_username);
   ("sf.pproc.gid", pnum fr p_gid);
   ("sf.pproc.group", ptext fr p_groupname);
   ("sf.pproc.tty", pbool fr p_tty);
   ("sf.pproc.entry", pbool fr p_entry);
   ("sf.pproc.cmdline", match parent fr with Some p => JStr (txt (cmd p)) | None => JStr (txt """""") end);
   ("sf.pod.hostip+", addresses (match get_int_array (fr_slots fr) POD_HOSTIP_ANY SYSFLOW_SRC with Some l => l | None => [] end));
   ("sf.pod.internalip+", addresses (match get_int_array (fr_slots fr) POD_INTERNALIP_ANY SYSFLOW_SRC with Some l => l | None => [] end));
   ("sf.pod.services+", JArr (map service_value (match get_svc_array (fr_slots fr) POD_SERVICES_ANY SYSFLOW_SRC with Some l => l | None => [] end)))].
(** The value of an attribute: as listed, or the value a policy reads. *)
Definition attr_value (fr : flatrec) (name : string) : json :=
  match mget name (special fr) with
  | Some v => v
  | None => match map_attr X mappers name fr with
            | VStr s => text s
            | VInt z => JNum z
            | VInt32 z => JNum z
            | VBool b => JBool b
            | _ => JArr []
            end
  end.

(** The members of a record: [(name in the JSON, attribute)]. *)
Definition top : list (string * string) :=
  [("endts", "sf.endts"); ("opflags", "sf.opflags"); ("ret", "sf.ret"); ("ts", "sf.ts"); ("type", "sf.type")].
Definition in_section (prefix : string) (l : list string) : list (string * string) := map (fun n => (n, prefix ++ n)) l.
Definition sections : list (section * string * list (string * string)) :=
  [(SectCont, "container", in_section "sf.container." ["id"; "image"; "imageid"; "name"; "privileged"; "type"]);
   (SectFile, "file", in_section "sf.file." ["directory"; "fd"; "is_open_read"; "is_open_write"; "name"; "newdirectory"; "newname"; "newoid";
      "newpath"; "newsymlink"; "oid"; "openflags"; "path"; "symlink"; "type"]);
   (SectFlow, "flow", in_section "sf.flow." ["rbytes"; "rops"; "wbytes"; "wops"]);
   (SectK8sEvt, "k8s", in_section "sf.ke." ["action"; "kind"; "message"]);
   (SectMeta, "meta", in_section "sf.meta." ["schema"; "tracename"]);
   (SectNet, "net", in_section "sf.net." ["dip"; "dport"; "ip"; "port"; "proto"; "sip"; "sport"]);
   (SectNode, "node", in_section "sf.node." ["id"; "ip"]);
   (SectPod, "pod", [("hostip", "sf.pod.hostip+"); ("id", "sf.pod.id"); ("internalip", "sf.pod.internalip+"); ("name", "sf.pod.name");
      ("namespace", "sf.pod.namespace"); ("nodename", "sf.pod.nodename"); ("restartcnt", "sf.pod.restartcnt"); ("services", "sf.pod.services+"); ("ts", "sf.pod.ts")]);
   (SectPProc, "pproc", in_section "sf.pproc." ["args"; "cmdline"; "createts"; "entry"; "exe"; "gid"; "group"; "name"; "oid"; "pid"; "tty"; "uid"; "user"]);
   (SectProc, "proc", in_section "sf.proc." ["acmdline"; "aexe"; "aname"; "apid"; "args"; "cmdline"; "createts"; "entry"; "exe"; "gid"; "group";
      "name"; "oid"; "pid"; "tid"; "tty"; "uid"; "user"])].
(** The text of an attribute as a policy reads it, and its number. *)
Definition reads_text (fr : flatrec) (name : string) : string :=
  match map_attr X mappers name fr with VStr s => trim_bounding_quotes s | _ => "" end.
Definition reads_int (fr : flatrec) (name : string) : Z := match map_attr X mappers name fr with VInt z => z | _ => 0%Z end.
Definition rtype (fr : flatrec) : string := reads_text fr "sf.type".
(** Which sections a record has: those of its type, the parent process, container and pod when known. *)
Definition has_section (fr : flatrec) (s : section) : bool :=
  let is t := seqb (rtype fr) t in
  if is "KE" then match s with SectK8sEvt | SectNode | SectMeta => true | _ => false end
  else match s with
       | SectProc | SectNode | SectMeta => true
       | SectPProc => negb (Z.eqb (reads_int fr "sf.pproc.pid") 0)
       | SectNet => is "NF"
       | SectFile => is "FF" || is "FE"
       | SectFlow => is "FF" || is "NF"
       | SectCont => negb (seqb (reads_text fr "sf.container.id") "")
       | SectPod => negb (seqb (reads_text fr "sf.pod.id") "")
       | SectK8sEvt | SectNone => false
       end.
(** How severe a priority is. *)
Definition rank (p : priority) : Z :=
  match p with PInformational => 0 | PLow => 1 | PMedium => 2 | PHigh => 3 | PCritical => 4 end%Z.
Context {R : Type}.
Definition rule_value (r : rule R) : json :=
  JObj [("id", JStr (txt (r_name r))); ("desc", JStr (txt (r_desc r))); ("priority", JNum (rank (r_prio r)))].
Definition all_tags (ctx : context (rule R)) : list string :=
  (ctx_gettags ctx ++ flat_map (fun r => flat_map (fun t => match t with TagStr s => [s] | TagList l => l end) (r_tags r)) (ctx_getrules ctx))%list.
Definition record_value (version : json) (fr : flatrec) (ctx : context (rule R)) : json :=
  JObj ([("version", version)]
     ++ map (fun ka => (fst ka, attr_value fr (snd ka))) top
     ++ map (fun s => (snd (fst s), JObj (map (fun ka => (fst ka, attr_value fr (snd ka))) (snd s))))
            (List.filter (fun s => has_section fr (fst (fst s))) sections)
     ++ (match ctx_getrules ctx with [] => [] | rs => [("policies", JArr (map rule_value rs))] end)
     ++ (match all_tags ctx with [] => [] | ts => [("tags", JArr (map (fun t => JStr (txt t)) ts))] end)).

(** The records that can be written: the ancestry is known (unless the record is a Kubernetes event), a pod's
    addresses and services are there, with no more than one in each list, flag names need no escaping, and NF is
    the name of network flows and of nothing else. *)
Definition short {A} (o : option (list A)) : Prop := exists l, o = Some l /\ length l <= 1.
Definition plain_name (s : string) : Prop := jstr s s.
Definition writable (fr : flatrec) : Prop :=
  (rtype fr <> "KE" -> fr_ptree fr <> None) /\
  (has_section fr SectPod = true ->
     short (get_int_array (fr_slots fr) POD_HOSTIP_ANY SYSFLOW_SRC) /\
     short (get_int_array (fr_slots fr) POD_INTERNALIP_ANY SYSFLOW_SRC) /\
     short (get_svc_array (fr_slots fr) POD_SERVICES_ANY SYSFLOW_SRC) /\
     (forall l s, get_svc_array (fr_slots fr) POD_SERVICES_ANY SYSFLOW_SRC = Some l -> In s l -> length (s_clusterip s) <= 1)) /\
  (forall z t, Forall plain_name (x_opflags X z t)) /\ (forall z, Forall plain_name (x_openflags X z)) /\
  (forall z, trim_bounding_quotes (x_rectype X z) = "NF" <-> z = 5%Z).
End Value.
