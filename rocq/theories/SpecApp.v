(** * SpecApp: what a run of the shipped pipeline owes its user. *)
From Coq Require Import Permutation.
From Verif Require ReaderModel SpecReader JsonModel SpecJson.
From Verif Require Import GoBase Predicates FlatRecord EngineModel EngineFlat FlattenModel SpecFlatten ExportModel AppModel.

(** [ds]: what the reader hands to the flattener for the stream [rs]: one delivery per event, in
    order, with the event and the entities in force (SpecReader). *)
Definition Joined (rs : list ReaderModel.rec) (ds : list ReaderModel.delivery) : Prop :=
  map (fun d => ReaderModel.x_rec (fst d)) ds = List.filter (SpecReader.deliverable false) rs /\
  forall h r rest, rs = h ++ r :: rest -> SpecReader.deliverable false r = true ->
  exists x c, nth_error ds (SpecReader.count false h) = Some (x, c) /\ SpecReader.call_for r c /\
    match SpecReader.subject r with
    | Some id => forall s, SpecReader.Since SpecReader.is_header h s -> SpecReader.EventCtx false h s r id x
    | None => SpecReader.PlainCtx h r x
    end.
(** [out]: the flat records of the joined events [l], without those the rate filter holds back:
    repeats, within the configured age, of an event let through. *)
Definition Passed ipstr jsonsvcs (hash : flatrec -> Z) (conf : gomap string) (l : list (fctx * fevent)) (out : list flatrec) : Prop :=
  let flat := map (fun xe => flatten ipstr jsonsvcs (fst xe) (snd xe)) l in
  match filter_config conf with
  | None => out = flat
  | Some ttl => exists tr, map hash_of tr = map (consults ipstr jsonsvcs hash) l /\
      (forall j h b t, happened tr j h b t -> (b = true <-> recent_repeat ttl tr j h t)) /\ out = kept flat tr
  end.

(** The entities of the stream with all their attributes: what the reader looks at it keeps
    (ReaderModel), the rest is the payload. *)
Definition known_id (r : ReaderModel.idref) (o : option string) : Prop :=
  match o with Some s => r = ReaderModel.IStr s | None => forall s, r <> ReaderModel.IStr s end.
Definition same_oid (o : ReaderModel.oid) (q : oid) : Prop := fst o = createts q /\ snd o = hpid q.
Definition optionally {A B} (f : A -> B -> Prop) (a : option A) (b : option B) : Prop :=
  match a, b with Some x, Some y => f x y | None, None => True | _, _ => False end.
Definition same_cont (P : payloads) (c : ReaderModel.container) (q : fcont) : Prop :=
  let a := pay_cont P (ReaderModel.c_data c) in
  fc_id q = ReaderModel.c_id c /\ fc_name q = fc_name a /\ fc_image q = fc_image a /\ fc_imageid q = fc_imageid a /\ fc_type q = fc_type a /\ fc_priv q = fc_priv a.
Definition same_pod (P : payloads) (c : ReaderModel.pod) (q : fpod) : Prop :=
  let a := pay_pod P (ReaderModel.pd_data c) in
  fp_id q = ReaderModel.pd_id c /\ fp_ts q = fp_ts a /\ fp_name q = fp_name a /\ fp_node q = fp_node a /\ fp_ns q = fp_ns a /\ fp_restart q = fp_restart a /\
  fp_hostip q = fp_hostip a /\ fp_internalip q = fp_internalip a /\ fp_services q = fp_services a.
Definition same_proc (P : payloads) (c : ReaderModel.process) (q : FlatRecord.process) : Prop :=
  let a := pay_proc P (ReaderModel.p_data c) in
  p_state q = Z.to_nat (ReaderModel.p_state c) /\ same_oid (ReaderModel.p_oid c) (p_oid q) /\ optionally same_oid (ReaderModel.p_poid c) (p_poid q) /\
  p_exe q = ReaderModel.p_exe c /\ p_exeargs q = ReaderModel.p_args c /\ known_id (ReaderModel.p_cont c) (p_contid q) /\
  p_ts q = p_ts a /\ p_uid q = p_uid a /\ p_username q = p_username a /\ p_gid q = p_gid a /\ p_groupname q = p_groupname a /\ p_tty q = p_tty a /\ p_entry q = p_entry a.
Definition same_file (P : payloads) (c : ReaderModel.file) (q : ffile) : Prop :=
  let a := pay_file P (ReaderModel.f_data c) in
  ff_oid q = ReaderModel.f_oid c /\ known_id (ReaderModel.f_cont c) (ff_contid q) /\ ff_state q = ff_state a /\ ff_ts q = ff_ts a /\ ff_restype q = ff_restype a /\ ff_path q = ff_path a.
(** The event [xe] of the flattener is the delivery [d] of the reader: the record's own kind and
    attributes, with the entities joined to it, each in its place. *)
Definition same_event (P : payloads) (d : ReaderModel.delivery) (xe : fctx * fevent) : Prop :=
  let x := fst d in let y := fst xe in
  match ReaderModel.x_rec x, snd xe with
  | ReaderModel.RK8s n, EvK8s e => e = pay_k8s P n
  | ReaderModel.RProcEvt _ n, EvPE e => e = pay_pe P n
  | ReaderModel.RNetFlow _ n, EvNF e => e = pay_nf P n
  | ReaderModel.RFileFlow _ _ n, EvFF e => e = pay_ff P n
  | ReaderModel.RFileEvt _ _ _ n, EvFE e => e = pay_fe P n
  | _, _ => False
  end /\
  optionally (fun h q => q = pay_hdr P h) (ReaderModel.x_hdr x) (x_hdr y) /\ optionally (same_pod P) (ReaderModel.x_pod x) (x_pod y) /\
  optionally (same_cont P) (ReaderModel.x_cont x) (x_cont y) /\ optionally (same_proc P) (ReaderModel.x_proc x) (x_proc y) /\
  optionally (Forall2 (same_proc P)) (ReaderModel.x_ptree x) (x_ptree y) /\
  optionally (same_file P) (ReaderModel.x_file x) (x_file y) /\ optionally (same_file P) (ReaderModel.x_newfile x) (x_newfile y).

(** The text [t] consists of the lines [ls], each with its newline. *)
Definition made_of_lines (t : string) (ls : list string) : Prop := t = String.concat "" (map (fun l => (l ++ nl)%string) ls).

(** What the line tells of the record's policies: whether it is an alert, the rules (name, description, actions, tags, priority), the
    tags, the hashes. *)
Definition fired (c : context rmeta) : context (rule unit) :=
  mkCtx (cx_alert c)
    (match cx_rules c with
     | Some l => Some (map (fun m => mkRule (m_name m) (m_desc m) (fun _ => false) (m_actions m) (m_tags m) (m_prio m) [] true) l)
     | None => None
     end) (cx_tags c) (cx_hashes c).
(** [l] is the line of the record [r]: whenever the record can be written as JSON at all ([writable]),
    a JSON text for the attributes of the record and the rules that fired on it, and nothing else. *)
Definition json_line (X : sfgo_fns) (txt : string -> string) (two : bool) (vj : SpecJson.json) (r : sfrec) (l : string) : Prop :=
  SpecJson.writable X (fst r) -> forall v, SpecJson.jtext l v <-> v = SpecJson.record_value X txt two vj (fst r) (fired (snd r)).
