(** * PluginModel: driver/pipeline/plugincache.go and the loading of a pipeline
    (driver/pipeline/pipeline.go:83-204). *)
From Verif Require Import GoBase.

(** A JSON value of a stage's configuration, as far as Load and updateConfigFromEnv tell apart. *)
Inductive pval := VStr (s : string) | VList (l : list pval) | VOther.
Definition conf := gomap pval.
Definition ProcConfig : string := "processor".
Definition InChanConfig : string := "in".
Definition OutChanConfig : string := "out".

(** strings.ReplaceAll(s, "_", ".") *)
Definition dots (s : string) : string := smap (fun a => if Ascii.eqb a "_"%char then "."%char else a) s.
(** plugincache.go:184-191: one environment entry.  ToLower is byte-wise (see GoBase). *)
Definition env_entry (proc : string) (e : string) (m : gomap string) : res (gomap string) :=
  let '(name, value) := match cut_at "="%char e with
                        | Some (n, v) => (n, Some v)
                        | None => (e, None)            (* SplitN gives one element *)
                        end in
  match cut_at "_"%char (to_lower name) with
  | Some (k0, k1) =>
      if seqb k0 proc then
        match value with
        | Some v => Ok (mset (dots k1) v m)
        | None => Panic                                (* pair[1] *)
        end
      else Ok m
  | None => Ok m
  end.
(** plugincache.go:182-193 *)
Fixpoint get_env (proc : string) (env : list string) (m : gomap string) : res (gomap string) :=
  match env with
  | [] => Ok m
  | e :: env' => let* m1 := env_entry proc e m in get_env proc env' m1
  end.
(** plugincache.go:171-179; the map is ranged over in some order, which does not matter since
    each key is set once: the model sets, for each key, its binding. *)
Definition override (c : conf) (m : gomap string) : conf :=
  fold_right (fun kv c => mset (fst kv) (VStr (snd kv)) c) c m.
Definition update_stage (env : list string) (c : conf) : res conf :=
  match mget ProcConfig c with
  | Some (VStr proc) => let* m := get_env proc env [] in Ok (override c m)
  | _ => Ok c
  end.
Fixpoint update_config (env : list string) (p : list conf) : res (list conf) :=
  match p with
  | [] => Ok []
  | c :: p' => let* c1 := update_stage env c in let* p1 := update_config env p' in Ok (c1 :: p1)
  end.

(** strings.Fields: pieces between white space (unicode.IsSpace). *)
Fixpoint fields_aux (s cur : string) : list string :=
  let flush r := if seqb cur "" then r else cur :: r in
  match s with
  | EmptyString => flush []
  | String a s1 =>
      if is_space a then flush (fields_aux s1 "") else
      match s1 with
      | EmptyString => fields_aux s1 (cur ++ String a "")
      | String b s2 =>
          if is_space2 a b then flush (fields_aux s2 "") else
          match s2 with
          | EmptyString => fields_aux s1 (cur ++ String a "")
          | String c s3 => if is_space3 a b c then flush (fields_aux s3 "") else fields_aux s1 (cur ++ String a "")
          end
      end
  end.
Definition fields (s : string) : list string := fields_aux s "".

(** A channel: its identity (allocation order) and the name of the factory that made it. *)
Record chan := mkChan { ch_id : nat; ch_type : string }.
Record cache := mkCache { ca_map : gomap chan; ca_next : nat }.
Definition empty_cache : cache := mkCache [] 0.
(** plugincache.go:196-214; [types] are the registered factories.  [Ok (_, None)]: an error. *)
Definition get_chan (types : list string) (s : cache) (ch : string) : res (cache * option chan) :=
  match fields ch with
  | [] | [_] => Panic                                  (* fields[0], fields[1] in the trace call *)
  | [f0; f1] =>
      match mget f0 (ca_map s) with
      | Some c => Ok (s, Some c)
      | None =>
          if existsb (seqb f1) types then
            let c := mkChan (ca_next s) f1 in Ok (mkCache (mset f0 c (ca_map s)) (S (ca_next s)), Some c)
          else Ok (s, None)
      end
  | _ => Ok (s, None)
  end.
Fixpoint get_chans (types : list string) (s : cache) (reqs : list string) : res (cache * list (option chan)) :=
  match reqs with
  | [] => Ok (s, [])
  | r :: reqs' =>
      let* (s1, o) := get_chan types s r in
      let* (s2, os) := get_chans types s1 reqs' in Ok (s2, o :: os)
  end.

(** pipeline.go:140-166, 170-195: the channels of an in or out tag; [Ok (_, None)]: an error.
    A list element that is not a string panics ([channel.(string)]); a value that is neither a
    string nor a list yields no channel. *)
Fixpoint chan_list (types : list string) (s : cache) (l : list pval) : res (cache * option (list chan)) :=
  match l with
  | [] => Ok (s, Some [])
  | VStr n :: l' =>
      let* (s1, o) := get_chan types s n in
      match o with
      | None => Ok (s1, None)
      | Some c => let* (s2, o2) := chan_list types s1 l' in Ok (s2, match o2 with Some cs => Some (c :: cs) | None => None end)
      end
  | _ :: _ => Panic
  end.
Definition tag_chans (types : list string) (s : cache) (v : pval) : res (cache * option (list chan)) :=
  match v with
  | VList l => chan_list types s l
  | VStr n => chan_list types s [VStr n]
  | VOther => Ok (s, Some [])
  end.

Record stage := mkStage { sg_proc : string; sg_in : list chan; sg_out : list chan }.
Section Load.
Variable types : list string.               (* channel factories *)
Variable procs : string -> bool.            (* GetProcessor succeeds *)
Variable init_ok : string -> conf -> bool.  (* prc.Init(p) succeeds *)
(** pipeline.go:119-203.  Result: the stages started, and whether Load returned an error. *)
Fixpoint load (s : cache) (p : list conf) : res (cache * list stage * bool) :=
  match p with
  | [] => Ok (s, [], false)
  | c :: p' =>
      match mget ProcConfig c with
      | Some (VStr name) =>
          if procs name then
            if init_ok name c then
              match mget InChanConfig c with
              | None => Ok (s, [], true)
              | Some v =>
                  let* (s1, oi) := tag_chans types s v in
                  match oi with
                  | None => Ok (s1, [], true)
                  | Some ins =>
                      let* (s2, oo) := (match mget OutChanConfig c with
                                        | None => Ok (s1, Some [])
                                        | Some w => tag_chans types s1 w
                                        end) in
                      match oo with
                      | None => Ok (s2, [], true)
                      | Some outs =>
                          let* (s3, sgs, err) := load s2 p' in Ok (s3, mkStage name ins outs :: sgs, err)
                      end
                  end
              end
            else Ok (s, [], true)
          else Ok (s, [], true)
      | _ => Ok (s, [], false)                 (* 136-138: return err, which is nil here *)
      end
  end.
End Load.
