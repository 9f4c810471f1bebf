(** * AppModel: the shipped pipeline, put together from the models of its stages
    (resources/pipelines/pipeline.distribution.json: sysflowreader with the flattener as handler,
    policyengine, exporter; driver/pipeline/pipeline.go:119-204, 286-294).

    Every stage is a stage of NetModel whose handling of one record is the function of the
    stage's own model.  Simplifications: one output channel per stage, as in the shipped
    pipelines; no policy monitor (for it see C87); a panic while reading ends the process, the
    model's stage then does nothing. *)
From Verif Require ReaderModel JsonModel InitModel.
From Verif Require Import GoBase Predicates FlatRecord EngineModel EngineFlat FlattenModel ExportModel NetModel.

Local Open Scope nat_scope.
(** ReaderModel keeps the attributes it does not inspect as a number; [payloads] says what they
    are.  Any finite stream of records can be numbered. *)
Record payloads := mkPay {
  pay_hdr : nat -> fheader; pay_cont : nat -> fcont; pay_pod : nat -> fpod; pay_proc : nat -> FlatRecord.process; pay_file : nat -> ffile;
  pay_k8s : nat -> k8sevt; pay_pe : nat -> procevt; pay_nf : nat -> netflow; pay_ff : nat -> fileflow; pay_fe : nat -> fileevt }.

Section Conv.
Variable P : payloads.
Definition cid (r : ReaderModel.idref) : option string := match r with ReaderModel.IStr s => Some s | _ => None end.
Definition c_oid (o : ReaderModel.oid) : oid := mkOid (snd o) (fst o).
(** The entities with all their attributes (sfgo structures). *)
Definition c_cont (c : ReaderModel.container) : fcont :=
  let q := pay_cont P (ReaderModel.c_data c) in mkFCont (ReaderModel.c_id c) (fc_name q) (fc_image q) (fc_imageid q) (fc_type q) (fc_priv q).
Definition c_pod (c : ReaderModel.pod) : fpod :=
  let q := pay_pod P (ReaderModel.pd_data c) in
  mkFPod (fp_ts q) (ReaderModel.pd_id c) (fp_name q) (fp_node q) (fp_ns q) (fp_restart q) (fp_hostip q) (fp_internalip q) (fp_services q).
Definition c_proc (p : ReaderModel.process) : FlatRecord.process :=
  let q := pay_proc P (ReaderModel.p_data p) in
  mkProc (Z.to_nat (ReaderModel.p_state p)) (c_oid (ReaderModel.p_oid p)) (option_map c_oid (ReaderModel.p_poid p)) (p_ts q)
    (ReaderModel.p_exe p) (ReaderModel.p_args p) (p_uid q) (p_username q) (p_gid q) (p_groupname q) (p_tty q) (p_entry q) (cid (ReaderModel.p_cont p)).
Definition c_file (f : ReaderModel.file) : ffile :=
  let q := pay_file P (ReaderModel.f_data f) in
  mkFFile (ff_state q) (ff_ts q) (ff_restype q) (ReaderModel.f_oid f) (ff_path q) (cid (ReaderModel.f_cont f)).
Definition c_ctx (x : ReaderModel.ctx) : fctx :=
  mkFCtx (option_map (pay_hdr P) (ReaderModel.x_hdr x)) (option_map c_pod (ReaderModel.x_pod x)) (option_map c_cont (ReaderModel.x_cont x))
    (option_map c_proc (ReaderModel.x_proc x)) (option_map (map c_proc) (ReaderModel.x_ptree x))
    (option_map c_file (ReaderModel.x_file x)) (option_map c_file (ReaderModel.x_newfile x)).
(** The flattener's handlers that produce a record (flattener.go:122-249); those for entities
    do nothing (107-120, 137-147). *)
Definition c_event (c : ReaderModel.call) : option fevent :=
  match c with
  | ReaderModel.HK8s (Some n) => Some (EvK8s (pay_k8s P n))
  | ReaderModel.HProcEvt _ n => Some (EvPE (pay_pe P n))
  | ReaderModel.HNetFlow _ n => Some (EvNF (pay_nf P n))
  | ReaderModel.HFileFlow _ _ n => Some (EvFF (pay_ff P n))
  | ReaderModel.HFileEvt _ _ _ n => Some (EvFE (pay_fe P n))
  | _ => None
  end.
Definition events (ds : list ReaderModel.delivery) : list (fctx * fevent) :=
  flat_map (fun d => match c_event (snd d) with Some e => [(c_ctx (fst d), e)] | None => [] end) ds.
End Conv.

(** What travels on the channels, and what the exporter hands to its encoder. *)
Inductive msg := MRec (r : ReaderModel.rec) | MFlat (fr : flatrec) | MOut (r : sfrec) | MBatch (b : list sfrec).
(** The states of the stages: none, the reader's (with its handler's filter), the exporter's (with
    the number of records received). *)
Inductive sstate := SNone | SRead (rd : ReaderModel.reader) (f : option (Z * fstate)) | SExp (n : nat) (x : xstate sfrec).

Section App.
Variable P : payloads.
Variables (clk : nat -> Z) (ipstr : Z -> string) (jsonsvcs : list service -> string) (hash : flatrec -> Z).
Variable work : sfrec -> list sfrec.           (* what the engine sends on for a record *)
Variables (buffer xstart : Z).
(** What the select statement of the exporter yields: the ticks that come before the n-th record,
    and the times of the n-th record (ExportModel). *)
Variable ticks : nat -> list (Z * Z).
Variable times : nat -> Z * Z.

(** driver: sends the records of its source and closes the channel. *)
Definition driver_stage (rs : list ReaderModel.rec) : @stage msg sstate :=
  mkG true (map (fun r => (Some 0, MRec r)) rs) [] [0] 0 false SNone (fun st _ => (st, [])) (fun _ => []).
(** reader.go:90-165 with the flattener as its handler. *)
Definition read_step (st : sstate) (m : msg) : sstate * list (@eff msg) :=
  match st, m with
  | SRead rd f, MRec r =>
      match ReaderModel.reader_step false rd r with
      | Ok (rd', ds) =>
          let s := handle_all clk ipstr jsonsvcs hash (mkFlt f [[]]) (events P ds) in
          (SRead rd' (fl_filter s), map (fun fr => (Some 1, MFlat fr)) (concat (fl_out s)))
      | _ => (st, [])
      end
  | _, _ => (st, [])
  end.
Definition reader_stage (conf : gomap string) : @stage msg sstate :=
  mkG false [] [0] [1] 1 false (SRead ReaderModel.reader_init (option_map (fun ttl => (ttl, f_new)) (filter_config conf))) read_step (fun _ => []).
(** policyengine.go:119-169: up to [width] records at work, Process returns early; every record is
    wrapped with an empty context (common.NewRecord). *)
Definition engine_effects (m : msg) : list (@eff msg) :=
  match m with MFlat fr => map (fun r => (Some 2, MOut r)) (work (fr, ctx_new)) | _ => [] end.
Definition engine_stage (width : nat) : @stage msg sstate :=
  mkG false [] [1] [2] width true SNone (fun st m => (st, engine_effects m)) (fun _ => []).
(** exporter.go:113-160 *)
Definition x_ticks (n : nat) (x : xstate sfrec) : xstate sfrec := fold_left (x_step buffer) (map (fun t => XTick (fst t) (snd t)) (ticks n)) x.
Definition x_new (x x' : xstate sfrec) : list (@eff msg) := map (fun b => (None, MBatch b)) (skipn (length (x_batches x)) (x_batches x')).
Definition export_step (st : sstate) (m : msg) : sstate * list (@eff msg) :=
  match st, m with
  | SExp n x, MOut r => let x' := x_step buffer (x_ticks n x) (XRec r (fst (times n)) (snd (times n))) in (SExp (S n) x', x_new x x')
  | _, _ => (st, [])
  end.
Definition export_fin (st : sstate) : list (@eff msg) :=
  match st with SExp n x => x_new x (x_step buffer (x_ticks n x) XClose) | _ => [] end.
Definition exporter_stage : @stage msg sstate :=
  mkG false [] [2] [] 1 false (SExp 0 (x_start xstart)) export_step export_fin.

(** pipeline.go:119-204 on the shipped configuration. *)
Definition app (rs : list ReaderModel.rec) (conf : gomap string) (width : nat) : list (@stage msg sstate) :=
  [driver_stage rs; reader_stage conf; engine_stage width; exporter_stage].
End App.

(** policyengine.go:119-169: without policies every record is sent on; else the interpreter in force
    decides (EngineModel.work).  The worker pool is abstracted to this function and the number of
    records at work: C86 shows that it computes it under every schedule. *)
Definition engine_work (X : sfgo_fns) (M : gomap fieldmap) (ah : ahandler sfrec) (rd : InitModel.ready sfrec) (r : sfrec) : list sfrec :=
  match InitModel.rd_pi rd with
  | None => [r]
  | Some p => flat_map (fun e => match e with FOut o => [o] | _ => [] end) (snd (sf_work X M ah (EngineModel.c_mode (InitModel.rd_conf rd)) (fst p) (snd p) r))
  end.

(** The batches among the effects of the exporter. *)
Definition batches_of (es : list (@eff msg)) : list (list sfrec) :=
  flat_map (fun e => match snd e with MBatch b => [b] | _ => [] end) es.

(** json.go:65-75 on the records of the engine.  The encoder reads the names, descriptions,
    priorities and tags of the rules only: the rest of a rule is filled in arbitrarily. *)
Definition as_rule (m : rmeta) : rule unit := mkRule (m_name m) (m_desc m) (fun _ => false) (m_actions m) (m_tags m) (m_prio m) [] true.
Definition rules_ctx (c : context rmeta) : context (rule unit) :=
  mkCtx (cx_alert c) (option_map (map as_rule) (cx_rules c)) (cx_tags c) (cx_hashes c).
Definition json_of (X : sfgo_fns) (two : bool) (version : string) (r : sfrec) : res string :=
  JsonModel.encode_json X two version (fst r) (rules_ctx (snd r)).
Definition enc_json (X : sfgo_fns) (two : bool) (version : string) (r : sfrec) : option edata :=
  match json_of X two version r with Ok s => Some (DBytes s) | _ => None end.
