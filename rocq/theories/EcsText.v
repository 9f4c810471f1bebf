(** * EcsText: the text of an ECS document, as json.Marshal (encoding/json, go 1.19) writes it in transports/file.go:58,
    terminal.go:49, syslog.go:73 and elastic.go:99.

    encoding/json is not in /repo; it is modelled as documented: struct fields in their order, under the names and with the
    omissions of the tags at ecs.go:49-73; maps with their keys in ascending order; strings escaped, html characters included, in the way
    the JSON encoder's stringNoQuotes does ([w_string]; json.go:679-680 has it from there). *)
From Verif Require Import GoBase FlatRecord EngineModel EngineFlat JsonModel EcsModel ExportModel.
Open Scope string_scope.

(** The keys of a map are sorted as strings, byte by byte. *)
Fixpoint insert_key (kv : string * string) (l : list (string * string)) : list (string * string) :=
  match l with
  | [] => [kv]
  | kv' :: l' => if String.leb (fst kv) (fst kv') then kv :: l else kv' :: insert_key kv l'
  end.
Definition sort_keys (l : list (string * string)) : list (string * string) := fold_right insert_key [] l.
Definition member (kv : string * string) : string := w_string (fst kv) ++ ":" ++ snd kv.
Definition object (l : list (string * string)) : string := "{" ++ comma_list member l ++ "}".
(** Values in a JSONData (ecs.go:47); the association lists of [EcsModel] have distinct keys (see C108). *)
Fixpoint marshal (v : eval) : string :=
  match v with
  | ENull => "null"
  | EStr s => w_string s
  | EInt z => w_int z
  | EBool b => w_bool b
  | EList l => "[" ++ comma_list (fun s => s) (map marshal l) ++ "]"
  | EMap m => object (sort_keys (map (fun kv => (fst kv, marshal (snd kv))) m))
  end.
(** A field with the tag omitempty: absent when the string, map or slice is empty or nil. *)
Definition omit_str (name s : string) : list (string * string) := if seqb s "" then [] else [(name, w_string s)].
Definition omit_map (name : string) (o : option (gomap eval)) : list (string * string) :=
  match o with Some [] | None => [] | Some m => [(name, marshal (EMap m))] end.
Definition omit_list (name : string) (l : list eval) : list (string * string) := match l with [] => [] | _ => [(name, marshal (EList l))] end.
(** ecs.go:49-73: the identifier has the tag "-"; the structs agent and ecs are never empty in the sense of omitempty;
    a nil map without omitempty (event) is null. *)
Definition marshal_ecs (d : ecsdoc) : string :=
  object
    ([("@timestamp", w_string (e_ts d));
      ("agent", object (omit_str "type" "SysFlow" ++ omit_str "version" (e_agent_version d)));
      ("ecs", object (omit_str "version" (e_ecs_version d)));
      ("event", match e_event d with Some m => marshal (EMap m) | None => "null" end);
      ("host", marshal (EMap (e_host d)))] ++
     omit_map "container" (e_container d) ++ omit_map "orchestrator" (e_orch d) ++ omit_map "pod" (e_pod d) ++
     omit_list "service" (map EMap (e_service d)) ++ omit_map "file" (e_file d) ++ omit_map "sf_file_action" (e_fileaction d) ++
     omit_map "network" (e_network d) ++ omit_map "source" (e_source d) ++ omit_map "destination" (e_destination d) ++
     omit_map "process" (e_process d) ++ omit_map "user" (e_user d) ++ omit_list "tags" (map EStr (e_tags d)))%list.
(** What the encoder hands to a transport (ecs.go:95-102): a pointer to the document. *)
Definition enc_ecs (X : sfgo_fns) (E : ecs_fns) (version ecsversion : string) (r : sfrec) : option edata :=
  match encode_ecs X E version ecsversion (fst r) (snd r) with
  | Ok d => Some (DObj (Some (marshal_ecs d)) "" true)
  | _ => None
  end.
