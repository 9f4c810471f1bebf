(** * JsonModel: core/exporter/encoders/json.go.

    The easyjson writer (github.com/mailru/easyjson/jwriter, not in /repo) is a growing string: RawString and
    RawByte append, Int64 and Int32 append decimal digits, Bool true or false, and String(s) appends s escaped as
    stringNoQuotes does, between quotes (json.go:679-680 says it is the same code). *)
From Verif Require Import GoBase Predicates FlatRecord FieldTables.
Open Scope string_scope.

Definition byte (c : ascii) : Z := Z.of_nat (nat_of_ascii c).
Definition in_range (lo hi : Z) (c : ascii) : bool := Z.leb lo (byte c) && Z.leb (byte c) hi.

(** ** unicode/utf8.DecodeRuneInString on a non-empty string: the rune and its width; (65533, 1) is the error.
    The two tables of utf8.go (first and acceptRanges) are written out as ranges. *)
Definition rune_error : Z * nat := (65533%Z, 1).
Definition decode_rune (s : string) : Z * nat :=
  match s with
  | EmptyString => (65533%Z, 0)
  | String c0 s1 =>
      if in_range 0 127 c0 then (byte c0, 1)
      else if in_range 194 223 c0 then
        match s1 with
        | String c1 _ => if in_range 128 191 c1 then ((byte c0 - 192) * 64 + (byte c1 - 128), 2%nat)%Z else rune_error
        | _ => rune_error
        end
      else if in_range 224 239 c0 then
        match s1 with
        | String c1 (String c2 _) =>
            let lo := if Z.eqb (byte c0) 224 then 160%Z else 128%Z in
            let hi := if Z.eqb (byte c0) 237 then 159%Z else 191%Z in
            if in_range lo hi c1 && in_range 128 191 c2
            then (((byte c0 - 224) * 64 + (byte c1 - 128)) * 64 + (byte c2 - 128), 3%nat)%Z else rune_error
        | _ => rune_error
        end
      else if in_range 240 244 c0 then
        match s1 with
        | String c1 (String c2 (String c3 _)) =>
            let lo := if Z.eqb (byte c0) 240 then 144%Z else 128%Z in
            let hi := if Z.eqb (byte c0) 244 then 143%Z else 191%Z in
            if in_range lo hi c1 && in_range 128 191 c2 && in_range 128 191 c3
            then ((((byte c0 - 240) * 64 + (byte c1 - 128)) * 64 + (byte c2 - 128)) * 64 + (byte c3 - 128), 4%nat)%Z
            else rune_error
        | _ => rune_error
        end
      else rune_error
  end.

(** ** stringNoQuotes (json.go:698-761) *)
Definition hexchar (n : Z) : ascii :=
  ascii_of_nat (Z.to_nat (if Z.ltb n 10 then 48 + n else 87 + n)%Z).
(** htmlEscapeTable (json.go:681-693): the bytes below 128 written as they are. *)
Definition plain_byte (c : ascii) : bool :=
  negb (Z.ltb (byte c) 32) &&
  negb (existsb (Ascii.eqb c) [""""%char; "&"%char; "<"%char; ">"%char; "\"%char]).
(** json.go:717-732 *)
Definition esc_ascii (c : ascii) : string :=
  if Z.eqb (byte c) 9 then "\t"
  else if Z.eqb (byte c) 13 then "\r"
  else if Z.eqb (byte c) 10 then "\n"
  else if Ascii.eqb c "\"%char then "\\"
  else if Ascii.eqb c """"%char then "\"""
  else "\u00" ++ String (hexchar (byte c / 16)) (String (hexchar (byte c mod 16)) "").
(** The loop at json.go:706-759.  What is pending between p and i is appended at once here.  [copy] bytes
    remain of a rune that is copied, [drop] of one already written as an escape. *)
Fixpoint esc_loop (copy drop : nat) (s : string) : string :=
  match s with
  | EmptyString => ""
  | String c s' =>
      match copy, drop with
      | S k, _ => String c (esc_loop k 0 s')
      | 0, S k => esc_loop 0 k s'
      | 0, 0 =>
          if Z.ltb (byte c) 128 then
            if plain_byte c then String c (esc_loop 0 0 s') else esc_ascii c ++ esc_loop 0 0 s'
          else
            let (r, w) := decode_rune s in
            if Z.eqb r 65533 && Nat.eqb w 1 then "\ufffd" ++ esc_loop 0 0 s'
            else if Z.eqb r 8232 || Z.eqb r 8233 then
              "\u202" ++ String (hexchar (Z.land r 15)) (esc_loop 0 (w - 1) s')
            else String c (esc_loop (w - 1) 0 s')
      end
  end.
Definition string_no_quotes (s : string) : string := esc_loop 0 0 s.
(** Writer.String *)
Definition dq : string := """".
Definition w_string (s : string) : string := dq ++ string_no_quotes s ++ dq.
Definition w_int (z : Z) : string := format_int z.
Definition w_bool (b : bool) : string := format_bool b.

(** ** Values *)
(** A loop that writes a comma after every element but the last (json.go:376-383, 630-635, ...). *)
Fixpoint comma_list {A} (f : A -> string) (l : list A) : string :=
  match l with
  | [] => ""
  | [a] => f a
  | a :: l' => f a ++ "," ++ comma_list f l'
  end.
(** json.go:373-386 *)
Definition map_str_array (ss : list string) : string := "[" ++ comma_list (fun s => dq ++ s ++ dq) ss ++ "]".
(** json.go:388-396 *)
Definition ip_part (ip : Z) (k : Z) : string := w_int (Z.land (Z.shiftr ip k) 255).
Definition map_ip_str (ip : Z) : string :=
  ip_part ip 0 ++ "." ++ ip_part ip 8 ++ "." ++ ip_part ip 16 ++ "." ++ ip_part ip 24.
(** json.go:412-420: no comma between the elements. *)
Fixpoint map_ips_loop (l : list Z) : string :=
  match l with
  | [] => ""
  | ip :: l' => dq ++ map_ip_str ip ++ dq ++ map_ips_loop l'
  end.
Definition map_ip_array (ips : list Z) : string := "[" ++ map_ips_loop ips ++ "]".
(** json.go:437-456 *)
Definition w_field (name v : string) : string := dq ++ name ++ dq ++ ":" ++ v.
(** json.go:458-479 *)
Definition map_port (p : port) : string :=
  "{" ++ w_field "port" (w_int (p_port p)) ++ "," ++ w_field "targetport" (w_int (p_target p)) ++ "," ++
  w_field "nodeport" (w_int (p_node p)) ++ "," ++ w_field "proto" (w_string (p_proto p)) ++ "}".
Definition map_port_list (ps : list port) : string := w_field "ports" ("[" ++ comma_list map_port ps ++ "]").
(** json.go:481-497: no comma between the services. *)
Definition map_svc (s : service) : string :=
  "{" ++ w_field "id" (w_string (s_id s)) ++ "," ++ w_field "name" (w_string (s_name s)) ++ "," ++
  w_field "namespace" (w_string (s_namespace s)) ++ "," ++ w_field "clusterIP" (map_ip_array (s_clusterip s)) ++ "," ++
  map_port_list (s_ports s) ++ "}".
Fixpoint map_svcs_loop (l : list service) : string :=
  match l with [] => "" | s :: l' => map_svc s ++ map_svcs_loop l' end.
Definition map_svc_array (l : list service) : string := "[" ++ map_svcs_loop l ++ "]".

(** setCachedValueToJSON (json.go:556-677).  EMPTY_STRING (jsonconstants.go:45) is the two-byte string "". *)
Definition EMPTY_STRING : string := dq ++ dq.
Definition tq (s : string) : string := w_string (trim_bounding_quotes s).
Definition map_cmdline (p : process) : string :=
  let exe := trim_bounding_quotes (p_exe p) in
  let args := trim_bounding_quotes (p_exeargs p) in
  dq ++ string_no_quotes exe ++ (if Nat.ltb 0 (slen args) then " " ++ string_no_quotes args else "") ++ dq.
Definition cached_json (pt : option (list process)) (a : recattr) : string :=
  match pt with
  | None => ""
  | Some ps =>
      let parent := match ps with _ :: p :: _ => Some p | _ => None end in
      let str f := match parent with Some p => tq (f p) | None => w_string EMPTY_STRING end in
      let int f := match parent with Some p => w_int (f p) | None => w_int 0 end in
      let bool f := match parent with Some p => w_bool (f p) | None => w_bool false end in
      match a with
      | PProcName => str (fun p => base_name (p_exe p))
      | PProcExe => str p_exe
      | PProcArgs => str p_exeargs
      | PProcUID => int p_uid
      | PProcUser => str p_username
      | PProcGID => int p_gid
      | PProcGroup => str p_groupname
      | PProcTTY => bool p_tty
      | PProcEntry => bool p_entry
      | PProcCmdLine => match parent with Some p => map_cmdline p | None => w_string EMPTY_STRING end
      | ProcAName => "[" ++ comma_list (fun p => tq (base_name (p_exe p))) ps ++ "]"
      | ProcAExe => "[" ++ comma_list (fun p => tq (p_exe p)) ps ++ "]"
      | ProcACmdLine => "[" ++ comma_list map_cmdline ps ++ "]"
      | ProcAPID => "[" ++ comma_list (fun p => w_int (hpid (p_oid p))) ps ++ "]"
      end
  end.

Section Encoder.
Variable X : sfgo_fns.
(** Whether sfgo gives FL_NETW_SIP_INT the position of FL_FILE_OPENFLAGS_INT, as json.go:528-532 supposes. *)
Variable sip_alias : bool.

(** MapJSON (json.go:500-553); every exported entry has source SYSFLOW_SRC.  Panic: a nil array is
    dereferenced, or a mapped value has another type. *)
Definition map_json (e : fieldentry) (fr : flatrec) : res string :=
  let sl := fr_slots fr in
  let src := SYSFLOW_SRC in
  let str v := match v with VStr s => Ok (tq s) | _ => Panic end in
  let int v := match v with VInt z => Ok (w_int z) | _ => Panic end in
  let bool v := match v with VBool b => Ok (w_bool b) | _ => Panic end in
  let map_ips := "[" ++ dq ++ map_ip_str (get_int sl FL_NETW_SIP_INT src) ++ dq ++ "," ++
                 dq ++ map_ip_str (get_int sl FL_NETW_DIP_INT src) ++ dq ++ "]" in   (* 398-410 *)
  let generic := match run_fmap X (fe_map e) fr with VStr s => Ok ("[" ++ w_string s ++ "]") | _ => Panic end in
  let file_open := if Z.eqb (get_int sl SF_REC_TYPE src) NET_FLOW then Ok map_ips
                   else Ok (map_str_array (x_openflags X (match fe_index e with FIInt a => get_int sl a src | _ => 0%Z end))) in
  match fe_index e with
  | FIAids | FIParent => Ok (cached_json (fr_ptree fr) (fe_aux e))
  | ix =>
      match fe_type e with
      | MapStrVal => match ix with FIStr a => Ok (tq (get_str sl a src)) | _ => Panic end
      | MapIntVal => match ix with FIInt a => Ok (w_int (get_int sl a src)) | _ => Panic end
      | MapBoolVal => match ix with FIInt a => Ok (w_bool (Z.eqb (get_int sl a src) 1)) | _ => Panic end
      | MapSpecialStr => str (run_fmap X (fe_map e) fr)
      | MapSpecialInt => int (run_fmap X (fe_map e) fr)
      | MapSpecialBool => bool (run_fmap X (fe_map e) fr)
      | MapArrayStr | MapArrayInt =>
          match ix with
          | FIInt OPFLAGS_INT =>                                                      (* 366-371 *)
              Ok (map_str_array (x_opflags X (wrap32 (get_int sl OPFLAGS_INT src)) (x_rectype X (get_int sl SF_REC_TYPE src))))
          | FIInt FL_FILE_OPENFLAGS_INT => file_open
          | FIInt FL_NETW_SIP_INT => if sip_alias then file_open else generic
          | FIInt FL_NETW_SPORT_INT =>                                                (* 427-435 *)
              Ok ("[" ++ w_int (get_int sl FL_NETW_SPORT_INT src) ++ "," ++ w_int (get_int sl FL_NETW_DPORT_INT src) ++ "]")
          | FIAny POD_HOSTIP_ANY | FIAny POD_INTERNALIP_ANY =>
              match (match ix with FIAny a => get_int_array sl a src | _ => None end) with
              | Some ips => Ok (map_ip_array ips)
              | None => Panic
              end
          | _ => generic
          end
      | MapArraySvc => match ix with
                       | FIAny a => match get_svc_array sl a src with
                                    | Some l => Ok (map_svc_array l)
                                    | None => Panic
                                    end
                       | _ => Panic
                       end
      end
  end.

(** writeAttribute (json.go:348-358): the [i]-th dot-separated part of the name, without a final plus. *)
Definition part (i : nat) (name : string) : string := nth i (split_on "."%char name) "".
Definition attr_name (n : string) : string := if has_suffix n "+" then stake (slen n - 1) n else n.
Definition write_attribute (i : nat) (f : string * fieldentry) (fr : flatrec) : res string :=
  let* v := map_json (snd f) fr in Ok (dq ++ attr_name (part i (fst f)) ++ dq ++ ":" ++ v).

(** constants.go:24-34 *)
Definition sect_name (s : section) : string :=
  match s with
  | SectProc => "proc" | SectPProc => "pproc" | SectNet => "net" | SectFile => "file" | SectFlow => "flow"
  | SectCont => "container" | SectPod => "pod" | SectK8sEvt => "k8s" | SectNode => "node" | SectMeta => "meta"
  | SectNone => ""
  end.
Definition section_begin (s : section) : string := dq ++ sect_name s ++ dq ++ ":{".

(** What decides which sections are written (json.go:83-90). *)
Record jinfo := mkInfo { j_type : string; j_pproc : bool; j_cont : bool; j_pod : bool }.
(** json.go:99-287: None: the section has no case in the switch for this type of record; otherwise whether it
    is written. *)
Definition section_case (i : jinfo) (s : section) : option bool :=
  if seqb (j_type i) "KE" then
    match s with SectK8sEvt | SectNode | SectMeta => Some true | _ => None end
  else
    match s with
    | SectProc | SectNode | SectMeta => Some true
    | SectPProc => Some (j_pproc i)
    | SectNet => Some (seqb (j_type i) "NF")
    | SectFile => Some (seqb (j_type i) "FF" || seqb (j_type i) "FE")
    | SectFlow => Some (seqb (j_type i) "FF" || seqb (j_type i) "NF")
    | SectCont => Some (j_cont i)
    | SectPod => Some (j_pod i)
    | SectNone | SectK8sEvt => None
    end.
(** The state variable (None is BEGIN_STATE) and existed. *)
Record jstate := mkJ { js_state : option section; js_existed : bool; js_out : string }.
Definition in_state (st : option section) (s : section) : bool :=
  match st with Some s' => section_beq s' s | None => false end.
(** One iteration of the loop of lines 93-288.  The cases of the two switches are the same code up to the
    section and the condition under which it is written. *)
Definition field_step (i : jinfo) (fr : flatrec) (st : jstate) (f : string * fieldentry) : res jstate :=
  if Nat.eqb (num_sects (fst f)) 2 then
    let* a := write_attribute 1 f fr in Ok (mkJ (js_state st) (js_existed st) (js_out st ++ a ++ ","))
  else if Nat.eqb (num_sects (fst f)) 3 then
    match section_case i (fe_section (snd f)) with
    | None => Ok st
    | Some present =>
        let sec := fe_section (snd f) in
        if in_state (js_state st) sec then
          if present then let* a := write_attribute 2 f fr in Ok (mkJ (js_state st) (js_existed st) (js_out st ++ "," ++ a))
          else Ok st
        else
          let close := match js_state st with Some _ => if js_existed st then "}," else "" | None => "" end in
          if present then
            let* a := write_attribute 2 f fr in
            Ok (mkJ (Some sec) true (js_out st ++ close ++ section_begin sec ++ a))
          else Ok (mkJ (Some sec) false (js_out st ++ close))
    end
  else Ok st.
Fixpoint fields_loop (i : jinfo) (fr : flatrec) (st : jstate) (l : list (string * fieldentry)) : res jstate :=
  match l with
  | [] => Ok st
  | f :: l' => let* st1 := field_step i fr st f in fields_loop i fr st1 l'
  end.

(** json.go:291-318; [r] is the record type of the rules, irrelevant here. *)
Context {R : Type}.
Definition policy_json (r : rule R) : string :=
  "{""id"":" ++ w_string (r_name r) ++ ",""desc"":" ++ w_string (r_desc r) ++ ",""priority"":" ++ w_int (Z.of_nat (prio_val (r_prio r))) ++ "}".
Definition policies_json (rs : list (rule R)) : string :=
  match rs with [] => "" | _ => ",""policies"":[" ++ comma_list policy_json rs ++ "]" end.
(** json.go:308-317 *)
Definition tag_strings (t : tag) : list string := match t with TagStr s => [s] | TagList l => l end.
Definition rule_tags (rs : list (rule R)) : list string := flat_map (fun r => flat_map tag_strings (r_tags r)) rs.
(** json.go:321-340: a comma after every tag but the last of all. *)
Definition tags_json (ctags rtags : list string) : string :=
  match (ctags ++ rtags)%list with [] => "" | _ => ",""tags"":[" ++ comma_list w_string (ctags ++ rtags)%list ++ "]" end.

(** json.go:83-90 *)
Definition info (fr : flatrec) : res jinfo :=
  let* ty := map_str X mappers "sf.type" in
  let* ct := map_str X mappers "sf.container.id" in
  let* pd := map_str X mappers "sf.pod.id" in
  Ok (mkInfo (ty fr) (negb (Z.eqb (map_int X mappers "sf.pproc.pid" fr) 0)) (negb (seqb (ct fr) "")) (negb (seqb (pd fr) ""))).
(** encode (json.go:78-346); [version] is config.JSONSchemaVersion. *)
Definition encode_json (version : string) (fr : flatrec) (ctx : context (rule R)) : res string :=
  let* i := info fr in
  let* st := fields_loop i fr (mkJ None true ("{""version"":" ++ version ++ ",")) field_values in
  Ok (js_out st ++ "}" ++ policies_json (ctx_getrules ctx) ++ tags_json (ctx_gettags ctx) (rule_tags (ctx_getrules ctx)) ++ "}").
End Encoder.
