(** * FieldTables: the attribute tables of flatrecord/fieldmapper.go, transcribed line by line.
    Each row cites its source line. *)
From Verif Require Import GoBase Predicates FlatRecord.

(** fieldmapper.go:43-54 *)
Inductive mappingtype := MapIntVal | MapStrVal | MapBoolVal | MapArrayStr | MapArrayInt
| MapSpecialInt | MapSpecialStr | MapSpecialBool | MapArraySvc.
(** fieldmapper.go:59-72 *)
Inductive section := SectNone | SectProc | SectPProc | SectFile | SectNet | SectFlow
| SectCont | SectNode | SectMeta | SectPod | SectK8sEvt.
Scheme Equality for section.
(** FlatIndex: a slot of one of the three stores, or the two pseudo indices of
    fieldmapper.go:76-77. *)
Inductive flatindex := FIInt (a : iattr) | FIStr (a : sattr) | FIAny (a : aattr) | FIAids | FIParent.

(** fieldmapper.go:81-88 [FieldEntry] (the zero value of AuxAttr is PProcName). *)
Record fieldentry := mkEntry {
  fe_map : fieldmap; fe_index : flatindex; fe_type : mappingtype; fe_section : section; fe_aux : recattr }.

(** fieldmapper.go:269-370 [getExportedMappers]; every entry has source SYSFLOW_SRC. *)
Definition exported_entries : list (string * fieldentry) := [
  ("sf.type", mkEntry (MRecType SYSFLOW_SRC) (FIInt SF_REC_TYPE) MapSpecialStr SectNone PProcName) (* 272 *);
  ("sf.opflags", mkEntry (MOpFlags SYSFLOW_SRC) (FIInt OPFLAGS_INT) MapArrayStr SectNone PProcName) (* 273 *);
  ("sf.ret", mkEntry (MRet SYSFLOW_SRC) (FIInt SF_REC_TYPE) MapSpecialInt SectNone PProcName) (* 274 *);
  ("sf.ts", mkEntry (MInt SYSFLOW_SRC TS_INT) (FIInt TS_INT) MapIntVal SectNone PProcName) (* 275 *);
  ("sf.endts", mkEntry (MEndTs SYSFLOW_SRC) (FIInt FL_FILE_ENDTS_INT) MapSpecialInt SectNone PProcName) (* 276 *);
  ("sf.proc.oid", mkEntry (MOID SYSFLOW_SRC [PROC_OID_HPID_INT; PROC_OID_CREATETS_INT]) (FIInt PROC_OID_HPID_INT) MapSpecialStr SectProc PProcName) (* 278 *);
  ("sf.proc.pid", mkEntry (MInt SYSFLOW_SRC PROC_OID_HPID_INT) (FIInt PROC_OID_HPID_INT) MapIntVal SectProc PProcName) (* 279 *);
  ("sf.proc.name", mkEntry (MName SYSFLOW_SRC PROC_EXE_STR) (FIStr PROC_EXE_STR) MapSpecialStr SectProc PProcName) (* 280 *);
  ("sf.proc.exe", mkEntry (MStr SYSFLOW_SRC PROC_EXE_STR) (FIStr PROC_EXE_STR) MapStrVal SectProc PProcName) (* 281 *);
  ("sf.proc.args", mkEntry (MStr SYSFLOW_SRC PROC_EXEARGS_STR) (FIStr PROC_EXEARGS_STR) MapStrVal SectProc PProcName) (* 282 *);
  ("sf.proc.uid", mkEntry (MInt SYSFLOW_SRC PROC_UID_INT) (FIInt PROC_UID_INT) MapIntVal SectProc PProcName) (* 283 *);
  ("sf.proc.user", mkEntry (MStr SYSFLOW_SRC PROC_USERNAME_STR) (FIStr PROC_USERNAME_STR) MapStrVal SectProc PProcName) (* 284 *);
  ("sf.proc.tid", mkEntry (MInt SYSFLOW_SRC TID_INT) (FIInt TID_INT) MapIntVal SectProc PProcName) (* 285 *);
  ("sf.proc.gid", mkEntry (MInt SYSFLOW_SRC PROC_GID_INT) (FIInt PROC_GID_INT) MapIntVal SectProc PProcName) (* 286 *);
  ("sf.proc.group", mkEntry (MStr SYSFLOW_SRC PROC_GROUPNAME_STR) (FIStr PROC_GROUPNAME_STR) MapStrVal SectProc PProcName) (* 287 *);
  ("sf.proc.createts", mkEntry (MInt SYSFLOW_SRC PROC_OID_CREATETS_INT) (FIInt PROC_OID_CREATETS_INT) MapIntVal SectProc PProcName) (* 288 *);
  ("sf.proc.tty", mkEntry (MInt SYSFLOW_SRC PROC_TTY_INT) (FIInt PROC_TTY_INT) MapBoolVal SectProc PProcName) (* 289 *);
  ("sf.proc.entry", mkEntry (MInt SYSFLOW_SRC PROC_ENTRY_INT) (FIInt PROC_ENTRY_INT) MapBoolVal SectProc PProcName) (* 290 *);
  ("sf.proc.cmdline", mkEntry (MJoin SYSFLOW_SRC [PROC_EXE_STR; PROC_EXEARGS_STR]) (FIStr PROC_EXE_STR) MapSpecialStr SectProc PProcName) (* 291 *);
  ("sf.proc.aname", mkEntry (MCached SYSFLOW_SRC ProcAName) FIAids MapArrayStr SectProc ProcAName) (* 292 *);
  ("sf.proc.aexe", mkEntry (MCached SYSFLOW_SRC ProcAExe) FIAids MapArrayStr SectProc ProcAExe) (* 293 *);
  ("sf.proc.acmdline", mkEntry (MCached SYSFLOW_SRC ProcACmdLine) FIAids MapArrayStr SectProc ProcACmdLine) (* 294 *);
  ("sf.proc.apid", mkEntry (MCached SYSFLOW_SRC ProcAPID) FIAids MapArrayInt SectProc ProcAPID) (* 295 *);
  ("sf.pproc.oid", mkEntry (MOID SYSFLOW_SRC [PROC_POID_HPID_INT; PROC_POID_CREATETS_INT]) (FIInt PROC_POID_HPID_INT) MapSpecialStr SectPProc PProcName) (* 297 *);
  ("sf.pproc.pid", mkEntry (MInt SYSFLOW_SRC PROC_POID_HPID_INT) (FIInt PROC_POID_HPID_INT) MapIntVal SectPProc PProcName) (* 298 *);
  ("sf.pproc.name", mkEntry (MCached SYSFLOW_SRC PProcName) FIParent MapSpecialStr SectPProc PProcName) (* 299 *);
  ("sf.pproc.exe", mkEntry (MCached SYSFLOW_SRC PProcExe) FIParent MapSpecialStr SectPProc PProcExe) (* 300 *);
  ("sf.pproc.args", mkEntry (MCached SYSFLOW_SRC PProcArgs) FIParent MapSpecialStr SectPProc PProcArgs) (* 301 *);
  ("sf.pproc.uid", mkEntry (MCached SYSFLOW_SRC PProcUID) FIParent MapSpecialInt SectPProc PProcUID) (* 302 *);
  ("sf.pproc.user", mkEntry (MCached SYSFLOW_SRC PProcUser) FIParent MapSpecialStr SectPProc PProcUser) (* 303 *);
  ("sf.pproc.gid", mkEntry (MCached SYSFLOW_SRC PProcGID) FIParent MapSpecialInt SectPProc PProcGID) (* 304 *);
  ("sf.pproc.group", mkEntry (MCached SYSFLOW_SRC PProcGroup) FIParent MapSpecialStr SectPProc PProcGroup) (* 305 *);
  ("sf.pproc.createts", mkEntry (MInt SYSFLOW_SRC PROC_POID_CREATETS_INT) (FIInt PROC_POID_CREATETS_INT) MapIntVal SectPProc PProcName) (* 306 *);
  ("sf.pproc.tty", mkEntry (MCached SYSFLOW_SRC PProcTTY) FIParent MapSpecialInt SectPProc PProcTTY) (* 307 *);
  ("sf.pproc.entry", mkEntry (MCached SYSFLOW_SRC PProcEntry) FIParent MapSpecialInt SectPProc PProcEntry) (* 308 *);
  ("sf.pproc.cmdline", mkEntry (MCached SYSFLOW_SRC PProcCmdLine) FIParent MapSpecialStr SectPProc PProcCmdLine) (* 309 *);
  ("sf.file.name", mkEntry (MName SYSFLOW_SRC FILE_PATH_STR) (FIStr FILE_PATH_STR) MapSpecialStr SectFile PProcName) (* 311 *);
  ("sf.file.path", mkEntry (MPath SYSFLOW_SRC FILE_PATH_STR) (FIStr FILE_PATH_STR) MapSpecialStr SectFile PProcName) (* 312 *);
  ("sf.file.symlink", mkEntry (MSymlink SYSFLOW_SRC FILE_PATH_STR) (FIStr FILE_PATH_STR) MapSpecialStr SectFile PProcName) (* 313 *);
  ("sf.file.oid", mkEntry (MStr SYSFLOW_SRC FILE_OID_STR) (FIStr FILE_OID_STR) MapStrVal SectFile PProcName) (* 314 *);
  ("sf.file.directory", mkEntry (MDir SYSFLOW_SRC FILE_PATH_STR) (FIStr FILE_PATH_STR) MapSpecialStr SectFile PProcName) (* 315 *);
  ("sf.file.newname", mkEntry (MName SYSFLOW_SRC SEC_FILE_PATH_STR) (FIStr SEC_FILE_PATH_STR) MapSpecialStr SectFile PProcName) (* 316 *);
  ("sf.file.newpath", mkEntry (MPath SYSFLOW_SRC SEC_FILE_PATH_STR) (FIStr SEC_FILE_PATH_STR) MapStrVal SectFile PProcName) (* 317 *);
  ("sf.file.newsymlink", mkEntry (MSymlink SYSFLOW_SRC SEC_FILE_PATH_STR) (FIStr SEC_FILE_PATH_STR) MapSpecialStr SectFile PProcName) (* 318 *);
  ("sf.file.newoid", mkEntry (MStr SYSFLOW_SRC SEC_FILE_OID_STR) (FIStr SEC_FILE_OID_STR) MapStrVal SectFile PProcName) (* 319 *);
  ("sf.file.newdirectory", mkEntry (MDir SYSFLOW_SRC SEC_FILE_PATH_STR) (FIStr SEC_FILE_PATH_STR) MapSpecialStr SectFile PProcName) (* 320 *);
  ("sf.file.type", mkEntry (MFileType SYSFLOW_SRC FILE_RESTYPE_INT) (FIInt FILE_RESTYPE_INT) MapSpecialStr SectFile PProcName) (* 321 *);
  ("sf.file.is_open_write", mkEntry (MIsOpenWrite SYSFLOW_SRC FL_FILE_OPENFLAGS_INT) (FIInt FL_FILE_OPENFLAGS_INT) MapSpecialBool SectFile PProcName) (* 322 *);
  ("sf.file.is_open_read", mkEntry (MIsOpenRead SYSFLOW_SRC FL_FILE_OPENFLAGS_INT) (FIInt FL_FILE_OPENFLAGS_INT) MapSpecialBool SectFile PProcName) (* 323 *);
  ("sf.file.fd", mkEntry (MInt SYSFLOW_SRC FL_FILE_FD_INT) (FIInt FL_FILE_FD_INT) MapIntVal SectFile PProcName) (* 324 *);
  ("sf.file.openflags", mkEntry (MOpenFlags SYSFLOW_SRC FL_FILE_OPENFLAGS_INT) (FIInt FL_FILE_OPENFLAGS_INT) MapArrayStr SectFile PProcName) (* 325 *);
  ("sf.net.proto", mkEntry (MInt SYSFLOW_SRC FL_NETW_PROTO_INT) (FIInt FL_NETW_PROTO_INT) MapIntVal SectNet PProcName) (* 327 *);
  ("sf.net.sport", mkEntry (MInt SYSFLOW_SRC FL_NETW_SPORT_INT) (FIInt FL_NETW_SPORT_INT) MapIntVal SectNet PProcName) (* 328 *);
  ("sf.net.dport", mkEntry (MInt SYSFLOW_SRC FL_NETW_DPORT_INT) (FIInt FL_NETW_DPORT_INT) MapIntVal SectNet PProcName) (* 329 *);
  ("sf.net.port", mkEntry (MPort SYSFLOW_SRC [FL_NETW_SPORT_INT; FL_NETW_DPORT_INT]) (FIInt FL_NETW_SPORT_INT) MapArrayStr SectNet PProcName) (* 330 *);
  ("sf.net.sip", mkEntry (MIP SYSFLOW_SRC [FL_NETW_SIP_INT]) (FIInt FL_NETW_SIP_INT) MapSpecialStr SectNet PProcName) (* 331 *);
  ("sf.net.dip", mkEntry (MIP SYSFLOW_SRC [FL_NETW_DIP_INT]) (FIInt FL_NETW_DIP_INT) MapSpecialStr SectNet PProcName) (* 332 *);
  ("sf.net.ip", mkEntry (MIP SYSFLOW_SRC [FL_NETW_SIP_INT; FL_NETW_DIP_INT]) (FIInt FL_NETW_SIP_INT) MapArrayStr SectNet PProcName) (* 333 *);
  ("sf.flow.rbytes", mkEntry (MSum SYSFLOW_SRC [FL_FILE_NUMRRECVBYTES_INT; FL_NETW_NUMRRECVBYTES_INT]) (FIInt FL_FILE_NUMRRECVBYTES_INT) MapSpecialInt SectFlow PProcName) (* 335 *);
  ("sf.flow.rops", mkEntry (MSum SYSFLOW_SRC [FL_FILE_NUMRRECVOPS_INT; FL_NETW_NUMRRECVOPS_INT]) (FIInt FL_FILE_NUMRRECVOPS_INT) MapSpecialInt SectFlow PProcName) (* 336 *);
  ("sf.flow.wbytes", mkEntry (MSum SYSFLOW_SRC [FL_FILE_NUMWSENDBYTES_INT; FL_NETW_NUMWSENDBYTES_INT]) (FIInt FL_FILE_NUMWSENDBYTES_INT) MapSpecialInt SectFlow PProcName) (* 337 *);
  ("sf.flow.wops", mkEntry (MSum SYSFLOW_SRC [FL_FILE_NUMWSENDOPS_INT; FL_NETW_NUMWSENDOPS_INT]) (FIInt FL_FILE_NUMWSENDOPS_INT) MapSpecialInt SectFlow PProcName) (* 338 *);
  ("sf.container.id", mkEntry (MStr SYSFLOW_SRC CONT_ID_STR) (FIStr CONT_ID_STR) MapStrVal SectCont PProcName) (* 340 *);
  ("sf.container.name", mkEntry (MStr SYSFLOW_SRC CONT_NAME_STR) (FIStr CONT_NAME_STR) MapStrVal SectCont PProcName) (* 341 *);
  ("sf.container.imageid", mkEntry (MStr SYSFLOW_SRC CONT_IMAGEID_STR) (FIStr CONT_IMAGEID_STR) MapStrVal SectCont PProcName) (* 342 *);
  ("sf.container.image", mkEntry (MStr SYSFLOW_SRC CONT_IMAGE_STR) (FIStr CONT_IMAGE_STR) MapStrVal SectCont PProcName) (* 343 *);
  ("sf.container.type", mkEntry (MContType SYSFLOW_SRC CONT_TYPE_INT) (FIInt CONT_TYPE_INT) MapSpecialStr SectCont PProcName) (* 344 *);
  ("sf.container.privileged", mkEntry (MInt SYSFLOW_SRC CONT_PRIVILEGED_INT) (FIInt CONT_PRIVILEGED_INT) MapIntVal SectCont PProcName) (* 345 *);
  ("sf.pod.ts", mkEntry (MInt SYSFLOW_SRC POD_TS_INT) (FIInt POD_TS_INT) MapIntVal SectPod PProcName) (* 347 *);
  ("sf.pod.id", mkEntry (MStr SYSFLOW_SRC POD_ID_STR) (FIStr POD_ID_STR) MapStrVal SectPod PProcName) (* 348 *);
  ("sf.pod.name", mkEntry (MStr SYSFLOW_SRC POD_NAME_STR) (FIStr POD_NAME_STR) MapStrVal SectPod PProcName) (* 349 *);
  ("sf.pod.nodename", mkEntry (MStr SYSFLOW_SRC POD_NODENAME_STR) (FIStr POD_NODENAME_STR) MapStrVal SectPod PProcName) (* 350 *);
  ("sf.pod.namespace", mkEntry (MStr SYSFLOW_SRC POD_NAMESPACE_STR) (FIStr POD_NAMESPACE_STR) MapStrVal SectPod PProcName) (* 351 *);
  ("sf.pod.restartcnt", mkEntry (MInt SYSFLOW_SRC POD_RESTARTCOUNT_INT) (FIInt POD_RESTARTCOUNT_INT) MapIntVal SectPod PProcName) (* 352 *);
  ("sf.pod.hostip", mkEntry (MStr SYSFLOW_SRC POD_HOSTIP_STR) (FIStr POD_HOSTIP_STR) MapStrVal SectNone PProcName) (* 353 *);
  ("sf.pod.hostip+", mkEntry (MIntArray SYSFLOW_SRC POD_HOSTIP_ANY) (FIAny POD_HOSTIP_ANY) MapArrayInt SectPod PProcName) (* 354 *);
  ("sf.pod.internalip", mkEntry (MStr SYSFLOW_SRC POD_INTERNALIP_STR) (FIStr POD_INTERNALIP_STR) MapStrVal SectNone PProcName) (* 355 *);
  ("sf.pod.internalip+", mkEntry (MIntArray SYSFLOW_SRC POD_INTERNALIP_ANY) (FIAny POD_INTERNALIP_ANY) MapArrayInt SectPod PProcName) (* 356 *);
  ("sf.pod.services", mkEntry (MStr SYSFLOW_SRC POD_SERVICES_STR) (FIStr POD_SERVICES_STR) MapStrVal SectNone PProcName) (* 357 *);
  ("sf.pod.services+", mkEntry (MSvcArray SYSFLOW_SRC POD_SERVICES_ANY) (FIAny POD_SERVICES_ANY) MapArraySvc SectPod PProcName) (* 358 *);
  ("sf.ke.action", mkEntry (MAction SYSFLOW_SRC K8SE_ACTION_INT) (FIInt K8SE_ACTION_INT) MapSpecialStr SectK8sEvt PProcName) (* 360 *);
  ("sf.ke.kind", mkEntry (MKind SYSFLOW_SRC K8SE_KIND_INT) (FIInt K8SE_KIND_INT) MapSpecialStr SectK8sEvt PProcName) (* 361 *);
  ("sf.ke.message", mkEntry (MStr SYSFLOW_SRC K8SE_MESSAGE_STR) (FIStr K8SE_MESSAGE_STR) MapStrVal SectK8sEvt PProcName) (* 362 *);
  ("sf.node.id", mkEntry (MStr SYSFLOW_SRC SFHE_EXPORTER_STR) (FIStr SFHE_EXPORTER_STR) MapStrVal SectNode PProcName) (* 364 *);
  ("sf.node.ip", mkEntry (MStr SYSFLOW_SRC SFHE_IP_STR) (FIStr SFHE_IP_STR) MapStrVal SectNode PProcName) (* 365 *);
  ("sf.meta.schema", mkEntry (MInt SYSFLOW_SRC SFHE_VERSION_INT) (FIInt SFHE_VERSION_INT) MapIntVal SectMeta PProcName) (* 367 *);
  ("sf.meta.tracename", mkEntry (MName SYSFLOW_SRC SFHE_FILENAME_STR) (FIStr SFHE_FILENAME_STR) MapSpecialStr SectMeta PProcName) (* 368 *)
].

(** fieldmapper.go:448-508 [getNonExportedMappers] *)
Definition nonexported_maps : gomap fieldmap := [
  ("evt.type", MOpFlags SYSFLOW_SRC) (* 451 *);
  ("evt.rawres", MRecType SYSFLOW_SRC) (* 452 *);
  ("evt.rawtime", MInt SYSFLOW_SRC TS_INT) (* 453 *);
  ("evt.dir", MConsts [">"; "<"]) (* 454 *);
  ("evt.is_open_read", MIsOpenRead SYSFLOW_SRC FL_FILE_OPENFLAGS_INT) (* 455 *);
  ("evt.is_open_write", MIsOpenWrite SYSFLOW_SRC FL_FILE_OPENFLAGS_INT) (* 456 *);
  ("evt.arg.uid", MInt SYSFLOW_SRC PROC_UID_INT) (* 457 *);
  ("fd.typechar", MFileType SYSFLOW_SRC FILE_RESTYPE_INT) (* 458 *);
  ("fd.directory", MDir SYSFLOW_SRC FILE_PATH_STR) (* 459 *);
  ("fd.name", MName SYSFLOW_SRC FILE_PATH_STR) (* 460 *);
  ("fd.filename", MName SYSFLOW_SRC FILE_PATH_STR) (* 461 *);
  ("fd.proto", MInt SYSFLOW_SRC FL_NETW_PROTO_INT) (* 462 *);
  ("fd.lproto", MInt SYSFLOW_SRC FL_NETW_PROTO_INT) (* 463 *);
  ("fd.l4proto", MInt SYSFLOW_SRC FL_NETW_PROTO_INT) (* 464 *);
  ("fd.rproto", MInt SYSFLOW_SRC FL_NETW_PROTO_INT) (* 465 *);
  ("fd.sproto", MInt SYSFLOW_SRC FL_NETW_PROTO_INT) (* 466 *);
  ("fd.cproto", MInt SYSFLOW_SRC FL_NETW_PROTO_INT) (* 467 *);
  ("fd.sport", MInt SYSFLOW_SRC FL_NETW_SPORT_INT) (* 468 *);
  ("fd.dport", MInt SYSFLOW_SRC FL_NETW_DPORT_INT) (* 469 *);
  ("fd.sip", MIP SYSFLOW_SRC [FL_NETW_SIP_INT]) (* 470 *);
  ("fd.dip", MIP SYSFLOW_SRC [FL_NETW_DIP_INT]) (* 471 *);
  ("fd.ip", MIP SYSFLOW_SRC [FL_NETW_SIP_INT; FL_NETW_DIP_INT]) (* 472 *);
  ("fd.port", MPort SYSFLOW_SRC [FL_NETW_SPORT_INT; FL_NETW_DPORT_INT]) (* 473 *);
  ("fd.num", MInt SYSFLOW_SRC FL_FILE_FD_INT) (* 474 *);
  ("user.name", MStr SYSFLOW_SRC PROC_USERNAME_STR) (* 475 *);
  ("proc.pid", MInt SYSFLOW_SRC PROC_OID_HPID_INT) (* 476 *);
  ("proc.tid", MInt SYSFLOW_SRC TID_INT) (* 477 *);
  ("proc.gid", MInt SYSFLOW_SRC PROC_GID_INT) (* 478 *);
  ("proc.uid", MInt SYSFLOW_SRC PROC_UID_INT) (* 479 *);
  ("proc.group", MStr SYSFLOW_SRC PROC_GROUPNAME_STR) (* 480 *);
  ("proc.tty", MCached SYSFLOW_SRC PProcTTY) (* 481 *);
  ("proc.user", MStr SYSFLOW_SRC PROC_USERNAME_STR) (* 482 *);
  ("proc.exe", MStr SYSFLOW_SRC PROC_EXE_STR) (* 483 *);
  ("proc.name", MName SYSFLOW_SRC PROC_EXE_STR) (* 484 *);
  ("proc.args", MStr SYSFLOW_SRC PROC_EXEARGS_STR) (* 485 *);
  ("proc.createtime", MInt SYSFLOW_SRC PROC_POID_CREATETS_INT) (* 486 *);
  ("proc.cmdline", MJoin SYSFLOW_SRC [PROC_EXE_STR; PROC_EXEARGS_STR]) (* 487 *);
  ("proc.aname", MCached SYSFLOW_SRC ProcAName) (* 488 *);
  ("proc.apid", MCached SYSFLOW_SRC ProcAPID) (* 489 *);
  ("proc.ppid", MInt SYSFLOW_SRC PROC_POID_HPID_INT) (* 490 *);
  ("proc.pgid", MCached SYSFLOW_SRC PProcGID) (* 491 *);
  ("proc.puid", MCached SYSFLOW_SRC PProcUID) (* 492 *);
  ("proc.pgroup", MCached SYSFLOW_SRC PProcGroup) (* 493 *);
  ("proc.ptty", MCached SYSFLOW_SRC PProcTTY) (* 494 *);
  ("proc.puser", MCached SYSFLOW_SRC PProcUser) (* 495 *);
  ("proc.pexe", MCached SYSFLOW_SRC PProcExe) (* 496 *);
  ("proc.pargs", MCached SYSFLOW_SRC PProcArgs) (* 497 *);
  ("proc.pcreatetime", MInt SYSFLOW_SRC PROC_POID_CREATETS_INT) (* 498 *);
  ("proc.pname", MCached SYSFLOW_SRC PProcName) (* 499 *);
  ("proc.pcmdline", MCached SYSFLOW_SRC PProcCmdLine) (* 500 *);
  ("container.id", MStr SYSFLOW_SRC CONT_ID_STR) (* 501 *);
  ("container.image.id", MStr SYSFLOW_SRC CONT_IMAGEID_STR) (* 502 *);
  ("container.image", MStr SYSFLOW_SRC CONT_IMAGE_STR) (* 503 *);
  ("container.name", MStr SYSFLOW_SRC CONT_NAME_STR) (* 504 *);
  ("container.type", MContType SYSFLOW_SRC CONT_TYPE_INT) (* 505 *);
  ("container.privileged", MInt SYSFLOW_SRC CONT_PRIVILEGED_INT) (* 506 *)
].

(** fieldmapper.go:250-260 [getMappers]: a non-exported entry is added only when the
    name is not already exported, so the exported table is searched first. *)
Definition mappers : gomap fieldmap :=
  map (fun p => (fst p, fe_map (snd p))) exported_entries ++ nonexported_maps.

(** fieldmapper.go:207-214, 239-246: the strict order used to sort the exported fields:
    by number of dot-separated sections, then by name. *)
Definition num_sects (n : string) : nat := length (split_on "."%char n).
Definition sltb (s t : string) : bool :=
  match String.compare s t with Lt => true | _ => false end.
Definition field_ltb (a b : string * fieldentry) : bool :=
  let ka := num_sects (fst a) in let kb := num_sects (fst b) in
  if Nat.eqb ka kb then sltb (fst a) (fst b) else Nat.ltb ka kb.

(** fieldmapper.go:229-248 [getFieldsAndValues].  sort.SliceStable with a total strict
    order has a unique result; insertion sort computes it. *)
Fixpoint insert_field (x : string * fieldentry) (l : list (string * fieldentry)) :=
  match l with
  | [] => [x]
  | y :: l' => if field_ltb y x then y :: insert_field x l' else x :: l
  end.
Definition field_values : list (string * fieldentry) := fold_right insert_field [] exported_entries.
