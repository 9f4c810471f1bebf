(** * ExportModel: core/exporter/exporter.go, the transports, commons/*config.go and utils/set.go. *)
From Verif Require Import GoBase EngineModel MonitorModel.
Open Scope Z_scope.

(** ** The export loop (exporter.go:113-160) *)
Section Loop.
Context {R : Type}.
(** What the select of line 131 yields: a record, a tick of the ticker, or the closed channel.  [now]
    is the clock when the case starts, [done] the clock when it ends (lines 140, 152, 156). *)
Inductive xevent :=
| XRec (r : R) (now done : Z)
| XTick (now done : Z)
| XClose.
(** s.recs, s.counter, lastFlush; whether RecLoop is still running; the batches process() was called
    with, in order.  The counter is an unbounded integer: it never exceeds the buffer size. *)
Record xstate := mkX { x_recs : list R; x_counter : Z; x_last : Z; x_open : bool; x_batches : list (list R) }.
(** exporter.go:125; s.recs and s.counter are zero in a fresh plugin. *)
Definition x_start (now : Z) : xstate := mkX [] 0 now true [].
(** exporter.go:122 (nanoseconds) *)
Definition maxIdle : Z := 1000000000.
(** exporter.go:137-140 and 153-156 *)
Definition x_flush (s : xstate) (done : Z) : xstate := mkX [] 0 done (x_open s) (x_batches s ++ [x_recs s]).
(** exporter.go:131-158; after the break at 148 nothing happens any more. *)
Definition x_step (buffer : Z) (s : xstate) (e : xevent) : xstate :=
  if x_open s then
    match e with
    | XRec r now done =>
        let s1 := mkX (x_recs s ++ [r]) (x_counter s + 1) (x_last s) true (x_batches s) in
        if Z.leb buffer (x_counter s1) then x_flush s1 done else s1
    | XClose =>
        mkX (x_recs s) (x_counter s) (x_last s) false
            (if Z.ltb 0 (x_counter s) then x_batches s ++ [x_recs s] else x_batches s)
    | XTick now done =>
        if Z.ltb maxIdle (now - x_last s) && Z.ltb 0 (x_counter s) then x_flush s done else s
    end
  else s.
Definition x_run (buffer start : Z) (es : list xevent) : xstate := fold_left (x_step buffer) es (x_start start).
End Loop.
Arguments xevent : clear implicits.
Arguments xstate : clear implicits.

(** ** Encoding and transports *)
(** commons.EncodedData: a byte slice, or an object with what json.Marshal makes of it and what
    fmt's %v prints. *)
Inductive edata := DBytes (s : string) | DObj (marshalled : option string) (printed : string) (ecs : bool).
(** Encode of the JSON and ECS encoders (json.go:65-75, ecs.go:95-102): the first record that fails makes the whole
    call fail. *)
Fixpoint encode_all {R} (enc : R -> option edata) (rs : list R) : option (list edata) :=
  match rs with
  | [] => Some []
  | r :: rs' => match enc r with
                | None => None
                | Some d => match encode_all enc rs' with None => None | Some ds => Some (d :: ds) end
                end
  end.

(** Encode of the OpenTelemetry encoder (otel.go:54-62): records that fail are left out. *)
Fixpoint encode_skip {R} (enc : R -> option edata) (rs : list R) : option (list edata) :=
  match rs with
  | [] => Some []
  | r :: rs' => match encode_skip enc rs', enc r with
                | Some ds, Some d => Some (d :: ds)
                | x, _ => x
                end
  end.

(** syslog.go:67-82.  The result is the messages the daemon took and whether an error is returned.
    [ok i] tells whether Alert succeeds for the [i]-th item. *)
Fixpoint syslog_export (ok : nat -> bool) (i : nat) (ds : list edata) : list string * bool :=
  match ds with
  | [] => ([], false)
  | d :: ds' =>
      match (match d with DBytes s => Some s | DObj m _ _ => m end) with
      | None => ([], true)
      | Some s => if ok i then let '(out, err) := syslog_export ok (S i) ds' in (s :: out, err) else ([], true)
      end
  end.
(** A write: everything, or only the first n bytes and an error. *)
Inductive wres := WOk | WShort (n : nat).
Definition nl : string := String (ascii_of_nat 10) "".
(** file.go:51-70.  [w i]: the write of the [i]-th item; [wn i]: of the newline after it, whose error is
    ignored.  The result is what is appended to the file and whether an error is returned. *)
Fixpoint file_export (w wn : nat -> wres) (i : nat) (ds : list edata) : string * bool :=
  match ds with
  | [] => ("", false)
  | d :: ds' =>
      let whole := match d with
                   | DBytes s => s
                   | DObj (Some m) _ _ => m
                   | DObj None p _ => p ++ nl
                   end in
      let newline := match d with
                     | DObj None _ _ => ""
                     | _ => match wn i with WOk => nl | WShort n => stake n nl end
                     end in
      match w i with
      | WShort n => (stake n whole, true)
      | WOk => let '(out, err) := file_export w wn (S i) ds' in (whole ++ newline ++ out, err)
      end
  end%string.
(** terminal.go:45-56: fmt.Println and fmt.Printf to standard output, errors ignored. *)
Fixpoint terminal_export (ds : list edata) : string :=
  match ds with
  | [] => ""
  | d :: ds' => (match d with
                 | DBytes s => s
                 | DObj (Some m) _ _ => m
                 | DObj None p _ => p
                 end ++ nl ++ terminal_export ds')%string
  end.
(** kafka.go:57-75: objects are skipped without an error, failed items are logged. *)
Fixpoint kafka_export (ok : nat -> bool) (i : nat) (ds : list edata) : list string :=
  match ds with
  | [] => []
  | DBytes s :: ds' => if ok i then s :: kafka_export ok (S i) ds' else kafka_export ok (S i) ds'
  | DObj _ _ _ :: ds' => kafka_export ok (S i) ds'
  end.
(** elastic.go:81-139: the documents added to the bulk indexer before Close; an error leaves the indexer
    unclosed.  [add i]: bi.Add of the [i]-th item succeeds. *)
Fixpoint es_add (add : nat -> bool) (i : nat) (ds : list edata) : list string * bool :=
  match ds with
  | [] => ([], false)
  | DObj (Some m) _ true :: ds' =>
      if add i then let '(out, err) := es_add add (S i) ds' in (m :: out, err) else ([], true)
  | _ :: _ => ([], true)
  end.

(** process (exporter.go:162-176) on each batch in turn, with the export function of a transport.  [i] is the
    number of records received before the batch: what may go wrong is given per record. *)
Section Process.
Context {R Out : Type} (encode : list R -> option (list edata)) (export : nat -> list edata -> Out * bool).
Definition process (i : nat) (b : list R) : option (Out * bool) :=
  match encode b with
  | None => None
  | Some [] => None
  | Some ds => Some (export i ds)
  end.
Fixpoint process_all (i : nat) (bs : list (list R)) : list (option (Out * bool)) :=
  match bs with
  | [] => []
  | b :: bs' => process i b :: process_all (i + length b) bs'
  end.
End Process.
(** file.go:43-48: Init removes the file, then opens it for appending; a file that cannot be removed keeps
    its content. *)
Definition file_init (removed : bool) (content : string) : string := if removed then "" else content.
Definition file_after (content : string) (outs : list (option (string * bool))) : string :=
  fold_left (fun c o => match o with Some (s, _) => (c ++ s)%string | None => c end) outs content.

(** ** Configuration (commons/config.go, fileconfig.go, syslogconfig.go, elasticconfig.go, kafkaconfig.go) *)
(** A configuration value: a string, a map (of which the keys matter), or anything else. *)
Inductive xval := XStr (s : string) | XMap (keys : list string) | XOther.
Definition xconf := gomap xval.
(** conf[k].(string) *)
Definition xstr (k : string) (c : xconf) : option string :=
  match mget k c with Some (XStr s) => Some s | _ => None end.
(** config.go:134-193 *)
Inductive transport := StdOutTransport | FileTransport | SyslogTransport | ESTransport | KafkaTransport | NullTransport.
Definition parse_transport (s : string) : transport :=
  if seqb "file" s then FileTransport
  else if seqb "syslog" s then SyslogTransport
  else if seqb "es" s then ESTransport
  else if seqb "kafka" s then KafkaTransport
  else if seqb "null" s then NullTransport
  else StdOutTransport.
Inductive xformat := JSONFormat | ECSFormat | OtelFormat.
Definition parse_format (s : string) : xformat :=
  if seqb s "json" then JSONFormat
  else if seqb s "ecs" then ECSFormat
  else if seqb s "otel" then OtelFormat
  else JSONFormat.
(** config.go:195-242 *)
Inductive xproto := TCPProto | TCPTLSProto | UDPProto.
Definition parse_proto (s : string) : xproto :=
  if seqb s "tcp" then TCPProto else if seqb s "tls" then TCPTLSProto else if seqb s "udp" then UDPProto else TCPProto.
Inductive vencoding := NoneVault | Base64Vault.
Definition parse_vencoding (s : string) : vencoding :=
  if seqb "none" s then NoneVault else if seqb "base64" s then Base64Vault else NoneVault.
(** kafkaconfig.go:74-95 *)
Inductive kencoding := ProtoEncoding | JSONEncoding.
Definition parse_kencoding (s : string) : kencoding :=
  if seqb "proto" s then ProtoEncoding else if seqb "json" s then JSONEncoding else ProtoEncoding.

(** What lies outside: time.ParseDuration (nanoseconds), opening the secrets directory (at the given path or
    the default one), and reading a secret from it under an encoding. *)
Record outside := mkOutside {
  os_duration : string -> option Z;
  os_secrets : option string -> bool;
  os_secret : option string -> vencoding -> string -> option string }.

(** config.go:45-62; the map of Kafka options (librdkafka's) is left out but for its required key. *)
Record xconfig := mkXC {
  xc_transport : transport; xc_format : xformat; xc_buffer : Z; xc_vault : bool;
  xc_version : string; xc_schema : string; xc_ecs : string; xc_build : string; xc_cluster : string;
  xc_path : string;
  xc_proto : xproto; xc_tag : string; xc_source : string; xc_host : string; xc_port : Z;
  xc_addresses : list string; xc_index : string; xc_user : string; xc_password : string;
  xc_workers : Z; xc_fbuffer : Z; xc_ftimeout : Z;
  xc_topic : string; xc_kencoding : kencoding }.

Definition xdflt (k d : string) (c : xconf) : string := match xstr k c with Some v => v | None => d end.
(** strconv.Atoi with a default; None: an error. *)
Definition xint (k : string) (d : Z) (c : xconf) : option Z :=
  match xstr k c with Some v => let '(z, err) := atoi v in if err then None else Some z | None => Some d end.
(** elasticconfig.go:66-83 *)
Definition xcred (o : outside) (k : string) (c : xconf) (vault : bool) (ve : vencoding) (t : transport) : option string :=
  match xstr k c with
  | Some v => Some v
  | None => if vault && (match t with ESTransport => true | _ => false end)
            then os_secret o (xstr "vault.path" c) ve k else Some ""
  end.
(** kafkaconfig.go:44-72 *)
Definition xkafka (c : xconf) : option (string * kencoding) :=
  match mget "kafka.config" c with
  | Some (XMap ks) =>
      if existsb (fun k => seqb k "bootstrap.servers") ks then
        match xstr "kafka.topic" c with
        | Some t => Some (t, match xstr "kafka.encoding" c with Some e => parse_kencoding e | None => ProtoEncoding end)
        | None => None
        end
      else None
  | _ => None
  end.
Definition obind {A B} (x : option A) (f : A -> option B) : option B := match x with Some a => f a | None => None end.
(** config.go:65-131; None: an error. *)
Definition create_xconfig (o : outside) (c : xconf) : option xconfig :=
  let vault := match xstr "vault.secrets" c with Some v => seqb v "true" | None => false end in
  let ve := match xstr "vault.encoding" c with Some e => parse_vencoding e | None => NoneVault end in
  if vault && negb (os_secrets o (xstr "vault.path" c)) then None else
  let t := match xstr "export" c with Some v => parse_transport v | None => StdOutTransport end in
  let f := match xstr "format" c with Some v => parse_format v | None => JSONFormat end in
  obind (xint "buffer" 0 c) (fun buffer =>
  (* syslogconfig.go:46-73 *)
  obind (xint "syslog.port" 514 c) (fun port =>
  (* elasticconfig.go:52-103 *)
  obind (xcred o "es.username" c vault ve t) (fun user =>
  obind (xcred o "es.password" c vault ve t) (fun password =>
  obind (xint "es.bulk.numWorkers" 0 c) (fun workers =>
  obind (xint "es.bulk.flushBuffer" 5000000 c) (fun fbuffer =>
  obind (match xstr "es.bulk.flushTimeout" c with Some v => os_duration o v | None => Some 30000000000 end) (fun ftimeout =>
  obind (xkafka c) (fun kt =>
  Some (mkXC t f buffer vault (xdflt "version" "" c) (xdflt "jsonschemaversion" "" c) (xdflt "ecsversion" "" c)
    (xdflt "buildnumber" "" c) (xdflt "cluster.id" "" c)
    (xdflt "file.path" "./export.out" c)
    (match xstr "syslog.proto" c with Some p => parse_proto p | None => TCPProto end)
    (xdflt "syslog.tag" "sysflow" c) (xdflt "syslog.source" "" c) (xdflt "syslog.host" "localhost" c) port
    (match xstr "es.addresses" c with Some v => split_on ","%char v | None => [] end)
    (xdflt "es.index" "" c) user password workers fbuffer ftimeout (fst kt) (snd kt)))))))))).

(** registryflatrecord.go, registryotel.go: the two builds. *)
Inductive build := FlatBuild | OtelBuild.
Definition has_codec (b : build) (f : xformat) : bool :=
  match b, f with
  | FlatBuild, JSONFormat | FlatBuild, ECSFormat | OtelBuild, OtelFormat => true
  | _, _ => false
  end.
Definition has_protocol (b : build) (t : transport) : bool :=
  match b, t with
  | FlatBuild, (SyslogTransport | StdOutTransport | FileTransport | NullTransport | ESTransport) => true
  | OtelBuild, (StdOutTransport | FileTransport | KafkaTransport | NullTransport) => true
  | _, _ => false
  end.
(** NewJSONEncoder, NewECSEncoder, NewOtelEncoder: make([]EncodedData, 0, EventBuffer), an element having 16
    bytes, panics when the capacity is negative or the size exceeds the 48 bits of an address. *)
Definition cap_ok (n : Z) : bool := Z.leb 0 n && Z.leb (n * 16) 281474976710656.
(** exporter.go:68-102; [tinit]: the transport's own Init succeeds.  The inner None: an error. *)
Definition x_init (b : build) (o : outside) (tinit : xconfig -> bool) (c : xconf) : res (option xconfig) :=
  match create_xconfig o c with
  | None => Ok None
  | Some cfg =>
      if has_codec b (xc_format cfg) then
        if cap_ok (xc_buffer cfg) then
          if has_protocol b (xc_transport cfg) then
            if tinit cfg then Ok (Some cfg) else Ok None
          else Ok None
        else Panic
      else Ok None
  end.

(** ** utils/set.go *)
(** The keys of the map; a key occurs once. *)
Definition gset := list string.
Definition set_new : gset := [].
Definition set_add (v : string) (s : gset) : gset := if existsb (seqb v) s then s else v :: s.
Definition set_remove (v : string) (s : gset) : gset := List.filter (fun k => negb (seqb k v)) s.
Definition set_contains (s : gset) (v : string) : bool := existsb (seqb v) s.
Definition set_len (s : gset) : nat := length s.
(** set.go:59-66; [order]: the order in which the map is ranged over. *)
Fixpoint set_subset (order : list string) (l : gset) : bool :=
  match order with
  | [] => true
  | k :: order' => if set_contains l k then set_subset order' l else false
  end.
