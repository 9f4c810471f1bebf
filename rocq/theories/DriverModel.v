(** * DriverModel: the data sources and the start of the program.
    driver/sysflow/{filedriver,streamingdriver,readmsgunixlinux}.go,
    driver/otel/{filedriver,kafkadriver,config}.go, driver/pipeline/pipeline.go:96-118, 207-276,
    driver/main.go:137-182.

    A run of a driver is the list of its actions on the pipeline and how it ended.  What the
    environment does (files, what a reader returns, connections, messages, the moments at which the
    flag [running] is read) enters as arguments.  The data race on [running] is not modelled: each
    reading yields true or false.  Rate counters and logging are left out. *)
From Verif Require Import GoBase PluginModel.

(** Actions of a driver on its output channel and on the pipeline. *)
Inductive act {R : Type} := ASend (r : R) | AClose | AWait.
Arguments act : clear implicits.
(** [OBlocked]: the driver waits for its environment when the described history ends. *)
Inductive outcome := ORet | OErr | OPanic | OBlocked.

(** ** Files: filedriver.go:42-67 (the same text in otel/filedriver.go:41-65) *)

(** os.Stat and, for a directory, os.ReadDir ([None]: it fails). *)
Inductive stat_res := StNotExist | StOtherErr | StFile | StDir (entries : option (list string)).
(** [Ok None]: an error is returned.  45-46: an error other than "does not exist" leaves fi nil. *)
Definition get_files (stat : string -> stat_res) (fn : string) : res (option (list string)) :=
  match stat fn with
  | StNotExist => Ok None
  | StOtherErr => Panic
  | StDir None => Ok None
  | StDir (Some []) => Ok None
  | StDir (Some es) => Ok (Some (map (fun e => (fn ++ "/" ++ e)%string) es))
  | StFile => Ok (Some [fn])
  end.

Section FileDriver.
Context {R : Type}.
(** What reading a file gives: os.Open fails; the container reader fails (139-150); or the data,
    [None] being a datum that cannot be read.  The conversion of a datum to a record (160) is
    included in the data. *)
Inductive file_res := FOpenErr | FReaderErr | FData (l : list (option R)).
(** The value of [*running] at its n-th reading. *)
Variable flag : nat -> bool.

(** filedriver.go:151-170: the records sent and the number of readings of the flag so far. *)
Fixpoint scan_file (n : nat) (l : list (option R)) : list R * nat :=
  match l with
  | [] => ([], n)
  | d :: l' =>
      if flag n then
        match d with
        | None => ([], S n)
        | Some r => let '(rs, n') := scan_file (S n) l' in (r :: rs, n')
        end
      else ([], S n)
  end.
(** filedriver.go:138-175: the records sent, and whether an error is returned. *)
Fixpoint read_files (open : string -> file_res) (n : nat) (fs : list string) : list R * bool :=
  match fs with
  | [] => ([], false)
  | f :: fs' =>
      match open f with
      | FOpenErr | FReaderErr => ([], true)
      | FData l =>
          let '(rs, n1) := scan_file n l in
          if flag n1 then let '(rs2, e) := read_files open (S n1) fs' in (rs ++ rs2, e)
          else (rs, false)
      end
  end.
(** filedriver.go:133-180 *)
Definition run_path (stat : string -> stat_res) (open : string -> file_res) (path : string) : list (act R) * outcome :=
  match get_files stat path with
  | Ok None => ([], OErr)
  | Ok (Some fs) =>
      let '(rs, e) := read_files open 0 fs in
      if e then (map ASend rs, OErr) else (map ASend rs ++ [AClose; AWait], ORet)
  | _ => ([], OPanic)
  end.
End FileDriver.
Arguments file_res : clear implicits.

(** reader.go:36: the type of channel the sysflow drivers write to. *)
Definition sysflow_chan : string := "sysflowchan".
Definition PathConfig : string := "path".
(** The channel a sysflow driver writes to (filedriver.go:108-127, streamingdriver.go:81-97):
    [Ok None] is a returned error; a channel of another type, or none at all, is a failed type
    assertion.  [root] is GetRootChannel (pipeline.go:248-253); [cfg] the driver's configuration. *)
Definition out_chan (types : list string) (s : cache) (root : option chan) (cfg : option conf) : res (option chan) :=
  let* o := (match cfg with
             | None => match root with Some c => Ok (Some c) | None => Panic end
             | Some c =>
                 match mget OutChanConfig c with
                 | Some (VStr v) => let* (_, o) := get_chan types s v in Ok o
                 | _ => Ok None
                 end
             end) in
  match o with
  | None => Ok None
  | Some c => if seqb (ch_type c) sysflow_chan then Ok (Some c) else Panic
  end.
(** filedriver.go:109, 122-124: a path in the configuration replaces the one of the command line. *)
Definition input_path (cfg : option conf) (path : string) : string :=
  match cfg with
  | None => path
  | Some c => match mget PathConfig c with Some (VStr p) => p | _ => path end
  end.
(** filedriver.go:107-181: the channel written to, the actions, the end. *)
Definition file_run {R} (types : list string) (s : cache) (root : option chan) (cfg : option conf)
    (flag : nat -> bool) (stat : string -> stat_res) (open : string -> file_res R) (path : string)
    : option chan * list (act R) * outcome :=
  match out_chan types s root cfg with
  | Ok None => (None, [], OErr)
  | Ok (Some c) => let '(a, o) := run_path flag stat open (input_path cfg path) in (Some c, a, o)
  | _ => (None, [], OPanic)
  end.

(** ** The socket driver *)
Section Streaming.
Context {R : Type}.
(** vm.Eval on a new record (streamingdriver.go:135-145): reads from the buffer; the record is
    sent whether or not an error is reported, so only the record matters. *)
Variable eval : string -> R.
Variable size : nat.                                     (* streamingdriver.go:45 BuffSize *)

Inductive sst := Accepting (running : bool) | Reading (buf : string) | Finished.
(** [Stop] is Pipeline.Shutdown (pipeline.go:238-245): the flag is cleared and Cleanup closes the
    connection, if there is one (streamingdriver.go:161-166). *)
Inductive sev := Connect | AcceptFails | Message (m : string) | ReadFails | Stop.
Fixpoint zeros (n : nat) : string := match n with O => EmptyString | S n' => String zero (zeros n') end.
(** A message overwrites the beginning of the buffer, the rest of which stays (136, 141). *)
Definition overlay (m buf : string) : string := (m ++ sdrop (slen m) buf)%string.
(** streamingdriver.go:123-157.  [None]: the event cannot happen in that state.
    A message larger than the buffer is truncated, which is reported in the flags of the read and
    is an error (readmsgunixlinux.go:31-37); after a failed read the driver accepts again.
    [Stop] while reading: the read fails on the closed connection and both loops end; [Stop] while
    accepting: the listener stays open, and the driver waits for the next connection. *)
Definition sstep (s : sst) (e : sev) : option (sst * list (act R)) :=
  match s, e with
  | Accepting true, Connect => Some (Reading (zeros size), [])
  | Accepting false, Connect => Some (Finished, [AClose; AWait])
  | Accepting _, AcceptFails => Some (Finished, [AClose; AWait])
  | Accepting _, Stop => Some (Accepting false, [])
  | Reading buf, Message m =>
      if slen m <=? size then let b := overlay m buf in Some (Reading b, [ASend (eval b)])
      else Some (Accepting true, [])
  | Reading _, ReadFails => Some (Accepting true, [])
  | Reading _, Stop => Some (Finished, [AClose; AWait])
  | Finished, Stop => Some (Finished, [])
  | _, _ => None
  end.
Fixpoint srun (s : sst) (es : list sev) : option (sst * list (act R)) :=
  match es with
  | [] => Some (s, [])
  | e :: es' =>
      match sstep s e with
      | None => None
      | Some (s1, a) => match srun s1 es' with None => None | Some (s2, b) => Some (s2, a ++ b) end
      end
  end.
(** streamingdriver.go:80-158: [setup] tells whether the steps before the loop succeed (98-121). *)
Definition stream_run (types : list string) (s : cache) (root : option chan) (cfg : option conf)
    (setup : bool) (es : list sev) : option (option chan * list (act R) * outcome) :=
  match out_chan types s root cfg with
  | Ok None => Some (None, [], OErr)
  | Ok (Some c) =>
      if setup then
        match srun (Accepting true) es with
        | Some (Finished, a) => Some (Some c, a, ORet)
        | Some (_, a) => Some (Some c, a, OBlocked)
        | None => None
        end
      else Some (Some c, [], OErr)
  | _ => Some (None, [], OPanic)
  end.
End Streaming.

(** ** OpenTelemetry files: otel/filedriver.go:95-146 *)
Definition otel_chan : string := "otelchan".               (* kafkadriver.go:36 *)
Section OtelFile.
Context {J L : Type}.
(** encoding/json decoding a value into a new message ([None]) or into an existing one, whose
    fields not mentioned stay as they were. *)
Variable decode : option L -> J -> L.
Variable flag : nat -> bool.
Inductive ofile := OOpenErr | OParseErr | OLogs (js : list J).
(** Actions: the messages in memory after a file was decoded (the slice otpLogs holds pointers,
    is declared outside the loop (111), and json.Unmarshal decodes the i-th element into the i-th
    message it already points to; elements are assumed not to be null), and sends of pointers. *)
Inductive oact := OMem (h : list L) | OSend (a : nat) | OClose | OWait.
Fixpoint unmarshal (h : list L) (js : list J) : list L :=
  match js, h with
  | [], _ => h
  | j :: js', [] => decode None j :: unmarshal [] js'
  | j :: js', l :: h' => decode (Some l) j :: unmarshal h' js'
  end.
(** 129-134: sends pointers i, i+1, ...; returns the sends and the number of flag readings. *)
Fixpoint send_logs (n i k : nat) : list oact * nat :=
  match k with
  | O => ([], n)
  | S k' => if flag n then let '(a, n') := send_logs (S n) (S i) k' in (OSend i :: a, n') else ([], S n)
  end.
(** 111-139 *)
Fixpoint read_logs (open : string -> ofile) (n : nat) (h : list L) (fs : list string) : list oact * bool :=
  match fs with
  | [] => ([], false)
  | f :: fs' =>
      match open f with
      | OOpenErr | OParseErr => ([], true)
      | OLogs js =>
          let h1 := unmarshal h js in
          let '(a, n1) := send_logs n 0 (length js) in
          if flag n1 then let '(b, e) := read_logs open (S n1) h1 fs' in (OMem h1 :: a ++ b, e)
          else (OMem h1 :: a, false)
      end
  end.
Definition otel_file_run (root : option chan) (stat : string -> stat_res) (open : string -> ofile) (path : string) : list oact * outcome :=
  match root with
  | Some c =>
      if seqb (ch_type c) otel_chan then
        match get_files stat path with
        | Ok None => ([], OErr)
        | Ok (Some fs) => let '(a, e) := read_logs open 0 [] fs in if e then (a, OErr) else (a ++ [OClose; OWait], ORet)
        | _ => ([], OPanic)
        end
      else ([], OErr)
  | None => ([], OErr)
  end.
End OtelFile.
Arguments ofile : clear implicits.
Arguments oact : clear implicits.

(** ** OpenTelemetry over Kafka: otel/kafkadriver.go, otel/config.go *)
Inductive kval := KStr (s : string) | KList (l : list kval) | KMap (m : gomap kval) | KOther.
Inductive encoding := EProto | EJson.
Record kconf := mkK { k_map : gomap kval; k_topics : list string; k_enc : encoding }.
(** config.go:90-98 *)
Definition parse_encoding (s : string) : encoding := if seqb s "proto" then EProto else if seqb s "json" then EJson else EProto.
Fixpoint topic_list (l : list kval) : res (list string) :=
  match l with
  | [] => Ok []
  | KStr t :: l' => let* ts := topic_list l' in Ok (t :: ts)
  | _ :: _ => Panic                                        (* 65: value.(string) *)
  end.
Definition kafka_defaults : gomap kval :=
  [("group.id", KStr "sfprocessor-otel-kafka-driver"); ("auto.offset.reset", KStr "earliest")].
(** config.go:44-75; [Ok None]: an error.  Keys beginning with "{topic}." are stored like the
    others (the library puts them in a sub-map). *)
Definition create_kafka_config (c : gomap kval) : res (option kconf) :=
  match mget "kafka.config" c with
  | Some (KMap m) =>
      let cm := fold_right (fun kv cm => mset (fst kv) (snd kv) cm) kafka_defaults m in
      if mhas "bootstrap.servers" cm then
        match mget "kafka.topics" c with
        | Some (KList l) =>
            let* ts := topic_list l in
            Ok (Some (mkK cm ts (match mget "kafka.encoding" c with Some (KStr e) => parse_encoding e | _ => EProto end)))
        | _ => Ok None
        end
      else Ok None
  | _ => Ok None
  end.
Section Kafka.
Context {R : Type}.
Variable parse : string -> option (list R).                (* json or proto, as configured: 106-113 *)
(** [KStop]: Shutdown; Cleanup does nothing (122-124) and the flag is never read. *)
Inductive kev := KMsg (m : string) | KReadErr | KStop.
(** kafkadriver.go:96-119 with the deferred close (94).  Result: the actions, and [None] while the
    driver waits for the next message. *)
Fixpoint kloop (es : list kev) : list (act R) * outcome :=
  match es with
  | [] => ([], OBlocked)
  | KStop :: es' => kloop es'
  | KReadErr :: _ => ([AClose], OErr)
  | KMsg m :: es' =>
      match parse m with
      | None => ([AClose], OErr)
      | Some rs => let '(a, o) := kloop es' in (map ASend rs ++ a, o)
      end
  end.
Definition kafka_run (root : option chan) (es : list kev) : list (act R) * outcome :=
  match root with
  | Some c => if seqb (ch_type c) otel_chan then kloop es else ([], OErr)
  | None => ([], OErr)
  end.
End Kafka.

(** ** Choice and start of the drivers *)
Definition DrivConfig : string := "driver".
(** main.go:137-140 *)
Definition driver_arg (d : string) : string := if seqb d "socket" then "" else d.
(** pipeline.go:104-114: the drivers of the configuration; entries without a name are skipped. *)
Fixpoint config_drivers (known : string -> bool) (ds : list conf) : option (list string) :=
  match ds with
  | [] => Some []
  | d :: ds' =>
      match mget DrivConfig d with
      | Some (VStr n) => if known n then match config_drivers known ds' with Some l => Some (n :: l) | None => None end else None
      | _ => config_drivers known ds'
      end
  end.
(** pipeline.go:96-118: [None] is an error.  A driver's GetName is the name it is registered under. *)
Definition load_drivers (known : string -> bool) (name : string) (ds : list conf) : option (list string) :=
  match (if seqb name "" then config_drivers known ds else if known name then Some [name] else None) with
  | Some [] => None
  | o => o
  end.
(** pipeline.go:262-276; the configuration file is assumed not to change. *)
Fixpoint driver_config (name : string) (ds : list conf) : option conf :=
  match ds with
  | [] => None
  | d :: ds' =>
      match mget DrivConfig d with
      | Some (VStr n) => if seqb n name then Some d else driver_config name ds'
      | _ => driver_config name ds'
      end
  end.
(** A started driver: its name, its configuration, and whether Init waits for it. *)
Record started := mkStarted { st_name : string; st_conf : option conf; st_awaited : bool }.
(** pipeline.go:207-235: the drivers started and whether Init returns an error.  [init_ok] is the
    driver's Init, [run_ok] whether its Run returns without error. *)
Fixpoint init_drivers (ds : list conf) (init_ok run_ok : string -> option conf -> bool) (names : list string) : list started * bool :=
  match names with
  | [] => ([], false)
  | n :: names' =>
      let c := driver_config n ds in
      if init_ok n c then
        match names' with
        | [] => ([mkStarted n c true], negb (run_ok n c))
        | _ => let '(st, e) := init_drivers ds init_ok run_ok names' in (mkStarted n c false :: st, e)
        end
      else ([], true)
  end.
(** main.go:136-182 without profiling: the drivers started and the exit status.  [stages_ok]: the
    rest of Load succeeds; [test] is the -test flag. *)
Definition main_run (known : string -> bool) (stages_ok : bool) (test : bool) (ds : list conf)
    (init_ok run_ok : string -> option conf -> bool) (arg : string) : list started * Z :=
  match load_drivers known (driver_arg arg) ds with
  | None => ([], 1%Z)
  | Some names =>
      if stages_ok then
        if test then ([], 0%Z)
        else let '(st, e) := init_drivers ds init_ok run_ok names in (st, if e then 1%Z else 0%Z)
      else ([], 1%Z)
  end.
