(** * Props_Json: the JSON encoder (properties C34-C36, C64, C65). *)
From Coq Require Import Lia.
From Verif Require Import GoBase GoFacts Predicates FlatRecord FieldTables Samples JsonModel SpecJson JsonFacts JsonFacts2 JsonFacts3 JsonFacts4 JsonFacts5 JsonFacts6 JsonFacts7.
Open Scope string_scope.

(** ** C34: what the encoder writes between quotes denotes the text, with bytes that are not UTF-8 replaced by
    U+FFFD; every string has exactly one such reading ... *)
Theorem C34_escape_faithful s t : clean s t -> jstr (string_no_quotes s) t.
Proof. exact (escape_ok s t). Qed.
Theorem C34_escape_every_string s : exists t, jstr (string_no_quotes s) t /\ clean s t /\ forall t', jstr (string_no_quotes s) t' -> t' = t.
Proof.
  exact (let (t, C) := clean_total s in ex_intro _ t (conj (escape_ok s t C) (conj C (fun t' J => jstr_fun _ t' t J (escape_ok s t C))))).
Qed.
(** ... UTF-8 comes back unchanged ... *)
Theorem C34_utf8_unchanged s : valid s -> jstr (string_no_quotes s) s.
Proof. exact (fun V => escape_ok s s (clean_valid s V)). Qed.
(** ... the string ends at the closing quote the encoder writes, whatever follows, for any reader ... *)
Theorem C34_ends_at_quote s r b t r' : jstr b t -> string_no_quotes s ++ """" ++ r = b ++ """" ++ r' -> b = string_no_quotes s /\ r' = r.
Proof.
  exact (fun J E => let (t0, C) := clean_total s in
    match jstr_ends _ _ _ _ _ _ (escape_ok s t0 C) J E with conj A (conj _ B) => conj (eq_sym A) (eq_sym B) end).
Qed.
(** ... and no control character is written. *)
Theorem C34_no_control s c : In c (list_ascii_of_string (string_no_quotes s)) -> (32 <= Z.of_nat (nat_of_ascii c))%Z.
Proof. exact (let (t, C) := clean_total s in fun H => jstr_bytes _ _ (escape_ok s t C) c H). Qed.
Print Assumptions C34_escape_faithful.
Print Assumptions C34_escape_every_string.
Print Assumptions C34_utf8_unchanged.
Print Assumptions C34_ends_at_quote.
Print Assumptions C34_no_control.
Example C34_example : string_no_quotes ("a""b\c" ++ String (chr 10) (String (chr 255) "<")) = "a\""b\\c\n\ufffd\u003c"
  /\ clean (String (chr 255) "<") (utf8 65533 ++ "<").
Proof.
  split; [reflexivity|]. constructor.
  - intros cp r S E. apply (proj1 (decode_bad (chr 255) "<") eq_refl cp r S E).
  - change "<" with (utf8 60 ++ ""). constructor; [left; lia|constructor].
Qed.

(** ** C35: a writable record is written as a JSON object with exactly the expected members, in order, no name twice. *)
Theorem C35_record_is_json (R : Type) X txt sip_alias version vj fr (ctx : context (rule R)) :
  (forall s, clean s (txt s)) -> jtext version vj -> unique vj -> writable X fr ->
  exists s, encode_json X sip_alias version fr ctx = Ok s /\ jtext s (record_value X txt sip_alias vj fr ctx) /\ unique (record_value X txt sip_alias vj fr ctx).
Proof.
  exact (fun C V U W => match encode_value X txt sip_alias fr C W ctx version vj V with ex_intro _ s (conj E J) => ex_intro _ s (conj E (conj J (record_unique X txt sip_alias fr vj ctx U))) end).
Qed.
(** A JSON text has one value, so nothing else can be read from it. *)
Theorem C35_one_value s v v' : jtext s v -> jtext s v' -> v = v'.
Proof. exact (jtext_fun s v v'). Qed.
Print Assumptions C35_record_is_json.
Print Assumptions C35_one_value.
Lemma X0_names : forall z, trim_bounding_quotes (x_rectype X0 z) = "NF" <-> z = 5%Z.
Proof.
  intros z. cbn [X0 x_rectype]. destruct (Z.eqb_spec z FILE_EVT) as [->|]; [split; intros E; vm_compute in E; discriminate E|]. destruct (Z.eqb_spec z PROC_EVT) as [->|]; [split; intros E; vm_compute in E; discriminate E|].
  destruct (Z.eqb_spec z NET_FLOW) as [->|]; [split; reflexivity|]. destruct (Z.eqb_spec z FILE_FLOW) as [->|]; [split; intros E; vm_compute in E; discriminate E|].
  destruct (Z.eqb_spec z K8S_EVT) as [->|]; split; intros E; try contradiction; vm_compute in E; discriminate E.
Qed.
Lemma X0_plain : names_plain X0.
Proof.
  split; intros z; [intros t|constructor]. cbn [X0 x_opflags].
  destruct (Z.eqb z 0); [constructor|destruct (Z.eqb z 3)]; repeat constructor; apply jstr_plain; reflexivity.
Qed.
Example C35_example : exists txt, (forall s, clean s (txt s)) /\ writable X0 rec0 /\ jtext "4" (JNum 4) /\ has_section X0 rec0 SectFile = true /\ has_section X0 rec0 SectNet = false.
Proof.
  exists cleaned. split; [exact cleaned_ok|]. split; [|repeat split; try (apply (jt_num 4)); reflexivity].
  split; [discriminate|]. split; [intros E; vm_compute in E; discriminate E|]. destruct X0_plain as [A B]. split; [exact A|]. split; [exact B|]. exact X0_names.
Qed.

(** ** C36: a list of addresses or services with several elements is not JSON, because no comma is written ... *)
Theorem C36_addresses_refuted l v : 2 <= length l -> ~ jtext (map_ip_array l) v.
Proof. exact (fun L J => match jt_run _ v AColon J eq_refl with or_introl E => eq_ind ABad (fun st => match st with ABad => True | _ => False end) I AVal (eq_trans (eq_sym (proj2 (proj2 (ip_array_run l)) L)) E)
                                          | or_intror E => eq_ind ABad (fun st => match st with ABad => True | _ => False end) I ALit (eq_trans (eq_sym (proj2 (proj2 (ip_array_run l)) L)) E) end). Qed.
Theorem C36_services_refuted l v : 2 <= length l -> ~ jtext (map_svc_array l) v.
Proof. exact (fun L J => match jt_run _ v AColon J eq_refl with or_introl E => eq_ind ABad (fun st => match st with ABad => True | _ => False end) I AVal (eq_trans (eq_sym (proj2 (proj2 (svc_array_run l)) (or_introl L))) E)
                                          | or_intror E => eq_ind ABad (fun st => match st with ABad => True | _ => False end) I ALit (eq_trans (eq_sym (proj2 (proj2 (svc_array_run l)) (or_introl L))) E) end). Qed.
(** ... and with at most one it is. *)
Theorem C36_short_addresses_partial l : length l <= 1 -> jtext (map_ip_array l) (JArr (map (fun ip => JStr (quad ip)) l)).
Proof. exact (ip_array_ok l). Qed.
Theorem C36_short_services_partial txt l : (forall s, clean s (txt s)) -> length l <= 1 -> (forall s, In s l -> length (s_clusterip s) <= 1) ->
  jtext (map_svc_array l) (JArr (map (service_value txt) l)).
Proof. exact (fun C => svc_array_ok txt C l). Qed.
(** The other lists (ancestors, tags, ports, policies, flags) do have their commas, for any number of elements. *)
Theorem C36_comma_list (A : Type) (f : A -> string) (g : A -> json) l : (forall a, In a l -> jtext (f a) (g a)) -> jtext ("[" ++ comma_list f l ++ "]") (JArr (map g l)).
Proof. exact (array_list f g l). Qed.
Print Assumptions C36_addresses_refuted.
Print Assumptions C36_services_refuted.
Print Assumptions C36_short_addresses_partial.
Print Assumptions C36_short_services_partial.
Print Assumptions C36_comma_list.
Example C36_example : map_ip_array [16777343%Z; 33554442%Z] = "[""127.0.0.1""""10.0.0.2""]".
Proof. reflexivity. Qed.

(** ** C64: among the records that are written, exactly the writable ones are JSON.  (In [writable], the last three
    conditions are the hypotheses made here on the names given by sfgo.) *)
Theorem C64_json_exactly_when_writable (R : Type) X sip_alias version vj fr (ctx : context (rule R)) s :
  (forall z t, Forall plain_name (x_opflags X z t)) -> (forall z, Forall plain_name (x_openflags X z)) ->
  (forall z, trim_bounding_quotes (x_rectype X z) = "NF" <-> z = 5%Z) ->
  jtext version vj -> encode_json X sip_alias version fr ctx = Ok s -> ((exists v, jtext s v) <-> writable X fr).
Proof. exact (fun A B C => json_iff X sip_alias fr ctx (conj A B) C version vj s). Qed.
(** In particular a record of a process whose ancestry is unknown is never JSON. *)
Theorem C64_unknown_ancestry_refuted (R : Type) X sip_alias version vj fr (ctx : context (rule R)) s v :
  (forall z t, Forall plain_name (x_opflags X z t)) -> (forall z, Forall plain_name (x_openflags X z)) ->
  (forall z, trim_bounding_quotes (x_rectype X z) = "NF" <-> z = 5%Z) ->
  jtext version vj -> encode_json X sip_alias version fr ctx = Ok s -> rtype X fr <> "KE" -> fr_ptree fr = None -> ~ jtext s v.
Proof. exact (fun A B C V E K P J => proj1 (proj1 (json_iff X sip_alias fr ctx (conj A B) C version vj s V E) (ex_intro _ v J)) K P). Qed.
Print Assumptions C64_json_exactly_when_writable.
Print Assumptions C64_unknown_ancestry_refuted.
Example C64_example : exists s, encode_json X0 true "4" (mkFlat [slot1; slot0] None) (ctx_new : context (rule unit)) = Ok s /\ rtype X0 (mkFlat [slot1; slot0] None) <> "KE".
Proof. eexists. split; [vm_compute; reflexivity|]. vm_compute. discriminate. Qed.

(** ** C65: the encoder returns for every record, except when a pod is known but its addresses or services are
    not lists: then it panics.  It never returns an error. *)
Theorem C65_encodes_iff (R : Type) X sip_alias version fr (ctx : context (rule R)) :
  ((exists s, encode_json X sip_alias version fr ctx = Ok s) <->
   (has_section X fr SectPod = true ->
    get_int_array (fr_slots fr) POD_HOSTIP_ANY SYSFLOW_SRC <> None /\ get_int_array (fr_slots fr) POD_INTERNALIP_ANY SYSFLOW_SRC <> None /\
    get_svc_array (fr_slots fr) POD_SERVICES_ANY SYSFLOW_SRC <> None)) /\
  ((exists s, encode_json X sip_alias version fr ctx = Ok s) \/ encode_json X sip_alias version fr ctx = Panic).
Proof. exact (conj (encode_ok_iff X sip_alias fr ctx version) (encode_or_panic X sip_alias fr ctx version)). Qed.
Print Assumptions C65_encodes_iff.
Definition pod_slot : slot := mkSlot SYSFLOW_SRC i0 (fun a => match a with POD_ID_STR => "pod1" | a => s0 a end) (fun _ => ANil).
Example C65_example : has_section X0 (mkFlat [pod_slot] (Some [])) SectPod = true /\
  encode_json X0 true "4" (mkFlat [pod_slot] (Some [])) (ctx_new : context (rule unit)) = Panic.
Proof. split; vm_compute; reflexivity. Qed.
