(** * SpecExport: what the exporter owes its users. *)
From Coq Require Import Permutation.
From Verif Require Import GoBase EngineModel ExportModel.
Open Scope Z_scope.

(** ** Batching *)
(** The records received before the channel is closed, in order. *)
Fixpoint received {R} (es : list (xevent R)) : list R :=
  match es with
  | [] => []
  | XClose :: _ => []
  | XRec r _ _ :: es' => r :: received es'
  | XTick _ _ :: es' => received es'
  end.
(** The clock does not go back: from [t] on, the readings of the history never decrease. *)
Fixpoint ordered {R} (t : Z) (es : list (xevent R)) : Prop :=
  match es with
  | [] => True
  | XRec _ a b :: es' | XTick a b :: es' => t <= a /\ a <= b /\ ordered b es'
  | XClose :: es' => ordered t es'
  end.

(** ** Delivery *)
(** What reaches the other side of a line-by-line transport for the batch [b] whose first record is the
    [i]-th received: nothing if the batch cannot be encoded; otherwise the texts of a first part of the batch,
    and of the whole batch unless a record of it was refused, which is then the first one missing. *)
Definition delivery {R} (enc : R -> option edata) (text : edata -> option string) (ok : nat -> bool)
    (i : nat) (b : list R) (o : option (list string * bool)) : Prop :=
  ((exists r, In r b /\ enc r = None) /\ o = None) \/
  (exists out err b1 b2, o = Some (out, err) /\ b = b1 ++ b2 /\
    Forall2 (fun r s => exists d, enc r = Some d /\ text d = Some s) b1 out /\
    (forall k, (k < length b1)%nat -> ok (i + k)%nat = true) /\
    (err = false -> b2 = []) /\
    (err = true -> exists r d b3, b2 = r :: b3 /\ enc r = Some d /\ (ok (i + length b1)%nat = false \/ text d = None))).
Definition syslog_text (d : edata) : option string :=
  match d with DBytes s => Some s | DObj m _ _ => m end.
(** The document an item is for Elastic: only ECS records are. *)
Definition es_text (d : edata) : option string :=
  match d with DObj (Some m) _ true => Some m | _ => None end.
(** [a] is obtained from [b] by leaving elements out. *)
Inductive sublist {A} : list A -> list A -> Prop :=
| sl_nil : sublist [] []
| sl_take x a b : sublist a b -> sublist (x :: a) (x :: b)
| sl_skip x a b : sublist a b -> sublist a (x :: b).
Definition delivered (os : list (option (list string * bool))) : list string :=
  flat_map (fun o => match o with Some (out, _) => out | None => [] end) os.
(** A line of a text file, and the text without a newline inside. *)
Definition line (d : edata) : string :=
  (match d with DBytes s => s | DObj (Some m) _ _ => m | DObj None p _ => p end ++ nl)%string.
Definition lines (ds : list edata) : string := String.concat "" (map line ds).
Definition one_line (d : edata) : Prop :=
  forall a b, (match d with DBytes s => s | DObj (Some m) _ _ => m | DObj None p _ => p end) <> (a ++ nl ++ b)%string.

(** ** Configuration *)
Definition option_of (c : xconf) (k v : string) : Prop := mget k c = Some (XStr v).
Definition no_option (c : xconf) (k : string) : Prop := forall v, ~ option_of c k v.
(** A text option has the given value, or its default. *)
Definition text_opt (c : xconf) (k d v : string) : Prop := option_of c k v \/ (no_option c k /\ v = d).
(** A number option: the decimal value of the text given. *)
Definition num_opt (c : xconf) (k : string) (d z : Z) : Prop :=
  (exists v, option_of c k v /\ parse_int64 v = Some z) \/ (no_option c k /\ z = d).
(** An option with a fixed choice of words, any other text (or none) standing for the default. *)
Definition word_opt {A} (c : xconf) (k : string) (words : list (string * A)) (d a : A) : Prop :=
  (exists w, option_of c k w /\ In (w, a) words) \/ ((forall w x, option_of c k w -> ~ In (w, x) words) /\ a = d).
Definition transport_words : list (string * transport) :=
  [("terminal", StdOutTransport); ("file", FileTransport); ("syslog", SyslogTransport); ("es", ESTransport);
   ("kafka", KafkaTransport); ("null", NullTransport)]%string.
Definition format_words : list (string * xformat) := [("json", JSONFormat); ("ecs", ECSFormat); ("otel", OtelFormat)]%string.
Definition proto_words : list (string * xproto) := [("tcp", TCPProto); ("tls", TCPTLSProto); ("udp", UDPProto)]%string.
Definition kafka_words : list (string * kencoding) := [("proto", ProtoEncoding); ("json", JSONEncoding)]%string.
Definition vault_words : list (string * vencoding) := [("none", NoneVault); ("base64", Base64Vault)]%string.
(** Options of a value other than text: none of those of the exporter but kafka.config. *)

(** ** Sets *)
Inductive setop := SAdd (v : string) | SRemove (v : string).
Definition set_apply (s : gset) (o : setop) : gset :=
  match o with SAdd v => set_add v s | SRemove v => set_remove v s end.
(** The last operation on [v] is an addition. *)
Fixpoint member (ops : list setop) (v : string) : Prop :=   (* most recent operation first *)
  match ops with
  | [] => False
  | SAdd w :: ops' => w = v \/ member ops' v
  | SRemove w :: ops' => w <> v /\ member ops' v
  end.
(** The Kafka options that every configuration needs, whatever its transport. *)
Definition kafka_given (c : xconf) : Prop :=
  exists keys topic, mget "kafka.config" c = Some (XMap keys) /\ In "bootstrap.servers"%string keys /\ option_of c "kafka.topic" topic.
(** A number option is absent or a decimal number in range. *)
Definition num_fine (c : xconf) (k : string) : Prop := forall v, option_of c k v -> parse_int64 v <> None.
Definition vault_on (c : xconf) : Prop := option_of c "vault.secrets" "true".
Definition path_of (c : xconf) (p : option string) : Prop :=
  match p with Some s => option_of c "vault.path" s | None => no_option c "vault.path" end.
(** Elastic credentials: those given; with the vault on and the es transport, the secrets; otherwise empty. *)
Definition cred_opt (o : outside) (c : xconf) (t : transport) (k v : string) : Prop :=
  option_of c k v \/
  (no_option c k /\ vault_on c /\ t = ESTransport /\ exists p ve, path_of c p /\
     word_opt c "vault.encoding" vault_words NoneVault ve /\ os_secret o p ve k = Some v) \/
  (no_option c k /\ ~ (vault_on c /\ t = ESTransport) /\ v = ""%string).
Definition duration_opt (o : outside) (c : xconf) (k : string) (d z : Z) : Prop :=
  (exists v, option_of c k v /\ os_duration o v = Some z) \/ (no_option c k /\ z = d).
(** The configuration [cfg] says what the options [c] say. *)
Definition configured (o : outside) (c : xconf) (cfg : xconfig) : Prop :=
  word_opt c "export" transport_words StdOutTransport (xc_transport cfg) /\
  word_opt c "format" format_words JSONFormat (xc_format cfg) /\
  num_opt c "buffer" 0 (xc_buffer cfg) /\
  (xc_vault cfg = true <-> vault_on c) /\
  text_opt c "version" "" (xc_version cfg) /\ text_opt c "jsonschemaversion" "" (xc_schema cfg) /\
  text_opt c "ecsversion" "" (xc_ecs cfg) /\ text_opt c "buildnumber" "" (xc_build cfg) /\
  text_opt c "cluster.id" "" (xc_cluster cfg) /\
  text_opt c "file.path" "./export.out" (xc_path cfg) /\
  word_opt c "syslog.proto" proto_words TCPProto (xc_proto cfg) /\ text_opt c "syslog.tag" "sysflow" (xc_tag cfg) /\
  text_opt c "syslog.source" "" (xc_source cfg) /\ text_opt c "syslog.host" "localhost" (xc_host cfg) /\
  num_opt c "syslog.port" 514 (xc_port cfg) /\
  ((exists v, option_of c "es.addresses" v /\ join "," (xc_addresses cfg) = v /\
      Forall (fun a => ~ exists x y, a = (x ++ "," ++ y)%string) (xc_addresses cfg)) \/
   (no_option c "es.addresses" /\ xc_addresses cfg = [])) /\
  text_opt c "es.index" "" (xc_index cfg) /\
  cred_opt o c (xc_transport cfg) "es.username" (xc_user cfg) /\ cred_opt o c (xc_transport cfg) "es.password" (xc_password cfg) /\
  num_opt c "es.bulk.numWorkers" 0 (xc_workers cfg) /\ num_opt c "es.bulk.flushBuffer" 5000000 (xc_fbuffer cfg) /\
  duration_opt o c "es.bulk.flushTimeout" 30000000000 (xc_ftimeout cfg) /\
  option_of c "kafka.topic" (xc_topic cfg) /\ word_opt c "kafka.encoding" kafka_words ProtoEncoding (xc_kencoding cfg).
(** When a configuration is accepted. *)
Definition acceptable (o : outside) (c : xconf) : Prop :=
  (vault_on c -> forall p, path_of c p -> os_secrets o p = true) /\
  num_fine c "buffer" /\ num_fine c "syslog.port" /\ num_fine c "es.bulk.numWorkers" /\ num_fine c "es.bulk.flushBuffer" /\
  (forall v, option_of c "es.bulk.flushTimeout" v -> os_duration o v <> None) /\
  (vault_on c -> option_of c "export" "es" -> forall k, In k ["es.username"; "es.password"]%string -> no_option c k ->
     forall p ve, path_of c p -> word_opt c "vault.encoding" vault_words NoneVault ve -> os_secret o p ve k <> None) /\
  kafka_given c.
