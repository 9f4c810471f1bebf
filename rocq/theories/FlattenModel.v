(** * FlattenModel: core/flattener/{flattener,filter,config}.go *)
From Verif Require Import GoBase Predicates FlatRecord EngineModel.

(** ** Source entities and events (sfgo structures, the fields the flattener reads).
    Numeric fields of smaller Go types are widened to int64 by the code, hence plain [Z]. *)
Record fheader := mkFHdr { fh_version : Z; fh_exporter : string; fh_ip : string; fh_filename : string }.
Record fcont := mkFCont { fc_id : string; fc_name : string; fc_image : string; fc_imageid : string; fc_type : Z; fc_priv : bool }.
Record fpod := mkFPod { fp_ts : Z; fp_id : string; fp_name : string; fp_node : string; fp_ns : string; fp_restart : Z;
  fp_hostip : list Z; fp_internalip : list Z; fp_services : list service }.
(** [ff_oid]: the bytes of the identifier; [ff_contid]: None for nil or null. *)
Record ffile := mkFFile { ff_state : Z; ff_ts : Z; ff_restype : Z; ff_oid : string; ff_path : string; ff_contid : option string }.
Record k8sevt := mkK8s { ke_ts : Z; ke_message : string; ke_kind : Z; ke_action : Z }.
Record procevt := mkPE { pe_ts : Z; pe_tid : Z; pe_opflags : Z; pe_ret : Z }.
Record netflow := mkNF { nf_ts : Z; nf_tid : Z; nf_opflags : Z; nf_endts : Z; nf_sip : Z; nf_sport : Z; nf_dip : Z; nf_dport : Z;
  nf_proto : Z; nf_fd : Z; nf_rops : Z; nf_wops : Z; nf_rbytes : Z; nf_wbytes : Z }.
Record fileflow := mkFF { fl_ts : Z; fl_tid : Z; fl_opflags : Z; fl_openflags : Z; fl_endts : Z; fl_fd : Z;
  fl_rops : Z; fl_wops : Z; fl_rbytes : Z; fl_wbytes : Z }.
Record fileevt := mkFE { fe_ts : Z; fe_tid : Z; fe_opflags : Z; fe_ret : Z }.
(** plugins.CtxSysFlow without the record itself. *)
Record fctx := mkFCtx { x_hdr : option fheader; x_pod : option fpod; x_cont : option fcont; x_proc : option process;
  x_ptree : option (list process); x_file : option ffile; x_newfile : option ffile }.
(** The events the flattener turns into flat records. *)
Inductive fevent := EvK8s (e : k8sevt) | EvPE (e : procevt) | EvNF (e : netflow) | EvFF (e : fileflow) | EvFE (e : fileevt).

(** ** Flattening *)
(** Assignments to the slots of a record. *)
Inductive wr := WI (a : iattr) (z : Z) | WS (a : sattr) (s : string) | WA (a : aattr) (v : anyval).
Definition write (sl : slot) (w : wr) : slot :=
  match w with
  | WI a z => mkSlot (sl_src sl) (fun b => if iattr_beq a b then z else sl_ints sl b) (sl_strs sl) (sl_anys sl)
  | WS a s => mkSlot (sl_src sl) (sl_ints sl) (fun b => if sattr_beq a b then s else sl_strs sl b) (sl_anys sl)
  | WA a v => mkSlot (sl_src sl) (sl_ints sl) (sl_strs sl) (fun b => if aattr_beq a b then v else sl_anys sl b)
  end.
(** flattener.go:408-419 *)
Definition new_flat : slot := mkSlot SYSFLOW_SRC (fun _ => 0%Z) (fun _ => "") (fun _ => ANil).

Section Flatten.
Variable ipstr : Z -> string.                  (* sfgo.GetIPStr *)
Variable jsonsvcs : list service -> string.    (* json.Marshal of the services *)
(** flattener.go:387-397: no separator between the addresses. *)
Definition get_ip_str (ips : list Z) : string :=
  ("[" ++ String.concat "" (map (fun ip => ("""" ++ ipstr (wrap32 ip) ++ """")%string) ips) ++ "]")%string.
(** hex.EncodeToString (flattener.go:404-406) *)
Definition hexdigit (n : nat) : ascii := if Nat.ltb n 10 then ascii_of_nat (48 + n) else ascii_of_nat (87 + n).
Fixpoint hex (s : string) : string :=
  match s with
  | EmptyString => EmptyString
  | String a s' => String (hexdigit (nat_of_ascii a / 16)) (String (hexdigit (nat_of_ascii a mod 16)) (hex s'))
  end.
Definition b2z (b : bool) : Z := if b then 1%Z else 0%Z.
Definition ostr (o : option string) : string := match o with Some s => s | None => "" end.
(** flattener.go:253-265 *)
Definition fill_header (h : option fheader) : list wr :=
  match h with
  | Some h => [WI SFHE_VERSION_INT (fh_version h); WS SFHE_EXPORTER_STR (fh_exporter h); WS SFHE_IP_STR (fh_ip h); WS SFHE_FILENAME_STR (fh_filename h)]
  | None => [WI SFHE_VERSION_INT 0; WS SFHE_EXPORTER_STR ""; WS SFHE_IP_STR ""]
  end.
(** flattener.go:269-287 *)
Definition fill_cont (c : option fcont) : list wr :=
  match c with
  | Some c => [WS CONT_ID_STR (fc_id c); WS CONT_NAME_STR (trim_space (fc_name c)); WS CONT_IMAGE_STR (trim_space (fc_image c));
               WS CONT_IMAGEID_STR (fc_imageid c); WI CONT_TYPE_INT (fc_type c); WI CONT_PRIVILEGED_INT (b2z (fc_priv c))]
  | None => [WS CONT_ID_STR ""; WS CONT_NAME_STR ""; WS CONT_IMAGE_STR ""; WS CONT_IMAGEID_STR ""; WI CONT_TYPE_INT 0; WI CONT_PRIVILEGED_INT 0]
  end.
(** flattener.go:288-314 *)
Definition fill_pod (p : option fpod) : list wr :=
  match p with
  | Some p => [WI POD_TS_INT (fp_ts p); WS POD_ID_STR (fp_id p); WS POD_NAME_STR (trim_space (fp_name p)); WS POD_NODENAME_STR (trim_space (fp_node p));
               WS POD_NAMESPACE_STR (trim_space (fp_ns p)); WI POD_RESTARTCOUNT_INT (fp_restart p);
               WS POD_HOSTIP_STR (get_ip_str (fp_hostip p)); WA POD_HOSTIP_ANY (AInts (fp_hostip p));
               WS POD_INTERNALIP_STR (get_ip_str (fp_internalip p)); WA POD_INTERNALIP_ANY (AInts (fp_internalip p));
               WS POD_SERVICES_STR (jsonsvcs (fp_services p)); WA POD_SERVICES_ANY (ASvcs (fp_services p))]
  | None => [WI POD_TS_INT 0; WS POD_ID_STR ""; WS POD_NAME_STR ""; WS POD_NODENAME_STR ""; WS POD_NAMESPACE_STR ""; WI POD_RESTARTCOUNT_INT 0;
             WS POD_HOSTIP_STR ""; WA POD_HOSTIP_ANY ANil; WS POD_INTERNALIP_STR ""; WA POD_INTERNALIP_ANY ANil; WS POD_SERVICES_STR ""; WA POD_SERVICES_ANY ANil]
  end.
(** flattener.go:315-365 *)
Definition fill_proc (p : option process) : list wr :=
  match p with
  | Some p => [WI PROC_STATE_INT (Z.of_nat (p_state p)); WI PROC_OID_CREATETS_INT (createts (p_oid p)); WI PROC_OID_HPID_INT (hpid (p_oid p))] ++
              (match p_poid p with
               | Some q => [WI PROC_POID_CREATETS_INT (createts q); WI PROC_POID_HPID_INT (hpid q)]
               | None => [WI PROC_POID_CREATETS_INT 0; WI PROC_POID_HPID_INT 0] end) ++
              [WI PROC_TS_INT (p_ts p); WS PROC_EXE_STR (trim_space (p_exe p)); WS PROC_EXEARGS_STR (trim_space (p_exeargs p));
               WI PROC_UID_INT (p_uid p); WS PROC_USERNAME_STR (p_username p); WI PROC_GID_INT (p_gid p); WS PROC_GROUPNAME_STR (p_groupname p);
               WI PROC_TTY_INT (b2z (p_tty p)); WI PROC_ENTRY_INT (b2z (p_entry p)); WS PROC_CONTAINERID_STRING_STR (ostr (p_contid p))]
  | None => [WI PROC_STATE_INT 0; WI PROC_OID_CREATETS_INT 0; WI PROC_OID_HPID_INT 0; WI PROC_POID_CREATETS_INT 0; WI PROC_POID_HPID_INT 0;
             WI PROC_TS_INT 0; WS PROC_EXE_STR ""; WS PROC_EXEARGS_STR ""; WI PROC_UID_INT 0; WS PROC_USERNAME_STR ""; WI PROC_GID_INT 0;
             WS PROC_GROUPNAME_STR ""; WI PROC_TTY_INT 0; WI PROC_ENTRY_INT 0; WS PROC_CONTAINERID_STRING_STR ""]
  end.
(** flattener.go:366-384 *)
Definition fill_file (f : option ffile) : list wr :=
  match f with
  | Some f => [WI FILE_STATE_INT (ff_state f); WI FILE_TS_INT (ff_ts f); WI FILE_RESTYPE_INT (ff_restype f); WS FILE_OID_STR (hex (ff_oid f));
               WS FILE_PATH_STR (trim_space (ff_path f)); WS FILE_CONTAINERID_STRING_STR (ostr (ff_contid f))]
  | None => [WI FILE_STATE_INT 0; WI FILE_TS_INT 0; WI FILE_RESTYPE_INT 0; WS FILE_PATH_STR ""; WS FILE_CONTAINERID_STRING_STR ""; WS FILE_OID_STR ""]
  end.
(** flattener.go:197-215 *)
Definition fill_newfile (f : option ffile) : list wr :=
  match f with
  | Some f => [WI SEC_FILE_STATE_INT (ff_state f); WI SEC_FILE_TS_INT (ff_ts f); WI SEC_FILE_RESTYPE_INT (ff_restype f); WS SEC_FILE_OID_STR (hex (ff_oid f));
               WS SEC_FILE_PATH_STR (trim_space (ff_path f)); WS SEC_FILE_CONTAINERID_STRING_STR (ostr (ff_contid f))]
  | None => [WI SEC_FILE_STATE_INT 0; WI SEC_FILE_TS_INT 0; WI SEC_FILE_RESTYPE_INT 0; WS SEC_FILE_PATH_STR ""; WS SEC_FILE_CONTAINERID_STRING_STR ""; WS SEC_FILE_OID_STR ""]
  end.
(** flattener.go:267-385 *)
Definition fill_entities (x : fctx) (f : option ffile) : list wr :=
  fill_header (x_hdr x) ++ fill_cont (x_cont x) ++ fill_pod (x_pod x) ++ fill_proc (x_proc x) ++ fill_file f.
(** flattener.go:124-131, 149-168, 174-189, 195-223, 239-248: the record built for an event.  A
    Kubernetes event gets no ancestry (nil). *)
Definition writes_of (x : fctx) (e : fevent) : list wr :=
  match e with
  | EvK8s k => [WI SF_REC_TYPE K8S_EVT] ++ fill_header (x_hdr x) ++
      [WI TS_INT (ke_ts k); WS K8SE_MESSAGE_STR (ke_message k); WI K8SE_KIND_INT (ke_kind k); WI K8SE_ACTION_INT (ke_action k)]
  | EvNF n => [WI SF_REC_TYPE NET_FLOW] ++ fill_entities x None ++
      [WI TS_INT (nf_ts n); WI TID_INT (nf_tid n); WI OPFLAGS_INT (nf_opflags n); WI FL_NETW_ENDTS_INT (nf_endts n); WI FL_NETW_SIP_INT (nf_sip n);
       WI FL_NETW_SPORT_INT (nf_sport n); WI FL_NETW_DIP_INT (nf_dip n); WI FL_NETW_DPORT_INT (nf_dport n); WI FL_NETW_PROTO_INT (nf_proto n);
       WI FL_NETW_FD_INT (nf_fd n); WI FL_NETW_NUMRRECVOPS_INT (nf_rops n); WI FL_NETW_NUMWSENDOPS_INT (nf_wops n);
       WI FL_NETW_NUMRRECVBYTES_INT (nf_rbytes n); WI FL_NETW_NUMWSENDBYTES_INT (nf_wbytes n)]
  | EvFF n => [WI SF_REC_TYPE FILE_FLOW] ++ fill_entities x (x_file x) ++
      [WI TS_INT (fl_ts n); WI TID_INT (fl_tid n); WI OPFLAGS_INT (fl_opflags n); WI FL_FILE_OPENFLAGS_INT (fl_openflags n); WI FL_FILE_ENDTS_INT (fl_endts n);
       WI FL_FILE_FD_INT (fl_fd n); WI FL_FILE_NUMRRECVOPS_INT (fl_rops n); WI FL_FILE_NUMWSENDOPS_INT (fl_wops n);
       WI FL_FILE_NUMRRECVBYTES_INT (fl_rbytes n); WI FL_FILE_NUMWSENDBYTES_INT (fl_wbytes n)]
  | EvFE n => fill_newfile (x_newfile x) ++ [WI SF_REC_TYPE FILE_EVT] ++ fill_entities x (x_file x) ++
      [WI TS_INT (fe_ts n); WI TID_INT (fe_tid n); WI OPFLAGS_INT (fe_opflags n); WI RET_INT (fe_ret n)]
  | EvPE n => [WI SF_REC_TYPE PROC_EVT] ++ fill_entities x None ++
      [WI TS_INT (pe_ts n); WI TID_INT (pe_tid n); WI OPFLAGS_INT (pe_opflags n); WI RET_INT (pe_ret n)]
  end.
Definition flatten (x : fctx) (e : fevent) : flatrec :=
  mkFlat [fold_left write (writes_of x e) new_flat] (match e with EvK8s _ => None | _ => x_ptree x end).
End Flatten.

(** ** The rate filter (filter.go).  The clock is read once per call of time.Since and time.Now:
    [clk n] is the n-th reading.  Times and durations are nanoseconds. *)
Section Filter.
Variable clk : nat -> Z.
Variable ttl : Z.
Record fstate := mkFState { f_m : list (Z * Z); f_q : list (Z * Z); f_n : nat }.
Definition f_new : fstate := mkFState [] [] 0.
Fixpoint zget (k : Z) (m : list (Z * Z)) : option Z :=
  match m with [] => None | (k', v) :: m' => if Z.eqb k' k then Some v else zget k m' end.
Definition zdel (k : Z) (m : list (Z * Z)) : list (Z * Z) := List.filter (fun p => negb (Z.eqb (fst p) k)) m.
Definition zset (k v : Z) (m : list (Z * Z)) : list (Z * Z) := (k, v) :: zdel k m.
(** filter.go:86-96 *)
Fixpoint evict (q m : list (Z * Z)) (n : nat) : fstate :=
  match q with
  | [] => mkFState m [] n
  | (h, t) :: q' => if Z.ltb (clk n - t) ttl then mkFState m q (S n) else evict q' (zdel h m) (S n)
  end.
(** filter.go:77-84 *)
Definition f_add (h : Z) (s : fstate) : fstate :=
  match zget h (f_m s) with
  | None => mkFState (zset h 1%Z (f_m s)) (f_q s ++ [(h, clk (f_n s))]) (S (f_n s))
  | Some v => mkFState (zset h (v + 1)%Z (f_m s)) (f_q s) (f_n s)
  end.
(** filter.go:60-65 *)
Definition test_and_add (h : Z) (s : fstate) : fstate * bool :=
  let s1 := evict (f_q s) (f_m s) (f_n s) in
  (f_add h s1, match zget h (f_m s1) with Some _ => true | None => false end).
(** filter.go:68-74 *)
Definition f_count (h : Z) (s : fstate) : Z :=
  let s1 := evict (f_q s) (f_m s) (f_n s) in match zget h (f_m s1) with Some c => c | None => 0%Z end.

(** A history of events, None for events that do not consult the filter.  Per event that does: the
    hash, whether it was suppressed, and the last clock reading of the call (the time of the event). *)
Definition entry := option (Z * bool * Z).
Fixpoint f_run (s : fstate) (hs : list (option Z)) : fstate * list entry :=
  match hs with
  | [] => (s, [])
  | None :: hs' => let (s2, tr) := f_run s hs' in (s2, None :: tr)
  | Some h :: hs' => let (s1, b) := test_and_add h s in
                     let (s2, tr) := f_run s1 hs' in (s2, Some (h, b, clk (f_n s1 - 1)) :: tr)
  end.
End Filter.

(** ** Output (flattener.go:89-96, 132-134): [hash] is the semantic hash of the event's record. *)
Section Out.
Variable clk : nat -> Z.
Variables (ipstr : Z -> string) (jsonsvcs : list service -> string).
Variable hash : flatrec -> Z.
(** Flattener: the filter is present iff enabled. *)
Record fltstate := mkFlt { fl_filter : option (Z * fstate); fl_out : list (list flatrec) }.
(** [for _, c := range s.outCh { c <- fr }]: every channel gets the record. *)
Definition send_all (fr : flatrec) (chs : list (list flatrec)) : list (list flatrec) := map (fun c => c ++ [fr]) chs.
Definition handle (s : fltstate) (xe : fctx * fevent) : fltstate :=
  let fr := flatten ipstr jsonsvcs (fst xe) (snd xe) in
  match snd xe with
  | EvK8s _ => mkFlt (fl_filter s) (send_all fr (fl_out s))
  | _ => match fl_filter s with
         | Some (ttl, f) => let (f', b) := test_and_add clk ttl (hash fr) f in
                            mkFlt (Some (ttl, f')) (if b then fl_out s else send_all fr (fl_out s))
         | None => mkFlt None (send_all fr (fl_out s))
         end
  end.
Definition handle_all (s : fltstate) (l : list (fctx * fevent)) : fltstate := fold_left handle l s.
End Out.

(** ** Semantic hash (filter.go:99-126): the bytes hashed.  binary.LittleEndian.PutUint64. *)
Fixpoint le_bytes (k : nat) (z : Z) : string :=
  match k with 0 => "" | S k' => String (ascii_of_nat (Z.to_nat (z mod 256))) (le_bytes k' (z / 256)) end.
Definition le64 (z : Z) : string := le_bytes 8 (z mod 18446744073709551616).
Definition sem_bytes (fr : flatrec) : string :=
  let i a := get_int (fr_slots fr) a SYSFLOW_SRC in let s a := get_str (fr_slots fr) a SYSFLOW_SRC in
  let ty := i SF_REC_TYPE in
  (s PROC_EXE_STR ++ s PROC_EXEARGS_STR ++ le64 (i PROC_UID_INT) ++ le64 (i PROC_GID_INT) ++ le64 (i OPFLAGS_INT) ++ le64 (i PROC_TTY_INT) ++
   (if Z.eqb ty NET_FLOW then le64 (i FL_NETW_SIP_INT) ++ le64 (i FL_NETW_DIP_INT) ++ le64 (i FL_NETW_DPORT_INT) ++ le64 (i FL_NETW_PROTO_INT) else "") ++
   (if Z.eqb ty FILE_FLOW || Z.eqb ty FILE_EVT then s FILE_PATH_STR else ""))%string.

(** ** Configuration (config.go:41-82, flattener.go:67-74): [ttl] in nanoseconds; None: filter off. *)
Definition filter_config (conf : gomap string) : option Z :=
  let on := match mget "filter.enabled" conf with Some v => if seqb "off" v then false else if seqb "on" v then true else false | None => false end in
  let age := match mget "filter.maxage" conf with
             | Some v => let (d, err) := atoi v in if err then 86400000000000%Z else wrap64 (d * 1000000000)
             | None => 86400000000000%Z end in
  if on then Some age else None.
