(** * StartModel: processors, handlers and channel types while a pipeline is loaded
    (driver/pipeline/plugincache.go:55-135, 196-240, driver/pipeline/pipeline.go:119-204,
    core/processor/handlercache.go, core/processor/processor.go:47-95).

    PluginModel.load takes the processors and channel types as given; here they are what the plugins
    have registered so far, in the caches of the process.  Channels and handlers have identities, and
    channels the Go type of their records. *)
From Verif Require Import GoBase PluginModel.

(** The record type of a channel: *sfgo.SysFlow, *plugins.CtxSysFlow, *sfgo.FlatRecord,
    *flatrecord.Record, *otel.ResourceLogs, or one of a plugin's own. *)
Inductive gtype := GSysFlow | GCtx | GFlat | GEvent | GLogs | GUser (n : nat).
Definition gtype_eq_dec (a b : gtype) : {a = b} + {a <> b}.
Proof. decide equality. apply Nat.eq_dec. Defined.
(** source/common/types_flatrecord.go, types_otel.go: the two builds. *)
Inductive variant := VFlat | VOtel.
Definition record_type (b : variant) : gtype := match b with VFlat => GEvent | VOtel => GLogs end.
Definition engine_input (b : variant) : gtype := match b with VFlat => GFlat | VOtel => GLogs end.

Inductive pkind := KReader | KProcessor | KEngine | KExporter | KUser (n : nat).
Inductive hkind := HFlattener | HUser (n : nat).
(** The maps of the caches hold interface{} values: factories, or something else. *)
Inductive pfac := PFactory (k : pkind) | PJunk.
Inductive cfac := CFactory (t : gtype) | CJunk.
Inductive hfac := HFactory (k : hkind) | HJunk.
Record tchan := mkTChan { tc_id : nat; tc_type : gtype }.
(** plugincache.go:46-64 *)
Record pcache := mkPC { pc_procs : gomap pfac; pc_types : gomap cfac; pc_chans : gomap tchan; pc_next : nat }.
(** A handler object: made by a factory, or the variable exported by a library. *)
Inductive hobj := HNew (n : nat) (k : hkind) | HLib (path : string) (k : hkind).
Definition hobj_kind (o : hobj) : hkind := match o with HNew _ k => k | HLib _ k => k end.
(** The variables of the process: the plugin cache kept by the processors (processor.go:43-44), the
    handler cache (handlercache.go:34-35), the plugin caches, one per pipeline, and the number of
    handlers made. *)
Record world := mkW { w_pc : option nat; w_hc : option (gomap hfac); w_caches : list pcache; w_made : nat }.
Definition fresh_world : world := mkW None None [] 0.

Definition add_all {A} (l : list (string * A)) (m : gomap A) : gomap A := fold_left (fun m kv => mset (fst kv) (snd kv) m) l m.
(** plugincache.go:67-76 with the Register methods of the built-in plugins. *)
Definition builtin_procs : list (string * pfac) :=
  [("sysflowreader", PFactory KReader); ("sysflowprocessor", PFactory KProcessor); ("policyengine", PFactory KEngine); ("exporter", PFactory KExporter)].
Definition builtin_types (b : variant) : list (string * cfac) :=
  [("sysflowchan", CFactory GSysFlow); ("ctxchan", CFactory GCtx); ("eventchan", CFactory (record_type b)); ("otelchan", CFactory GLogs)].
Definition set_cache (k : nat) (f : pcache -> pcache) (w : world) : world :=
  mkW (w_pc w) (w_hc w) (map (fun ic => if Nat.eqb (fst ic) k then f (snd ic) else snd ic) (combine (seq 0 (length (w_caches w))) (w_caches w))) (w_made w).
(** pipeline.go:49-56, plugincache.go:55-64, and the once-only assignment of processor.go:67-69. *)
Definition new_pipeline (b : variant) (w : world) : world :=
  mkW (match w_pc w with Some k => Some k | None => Some (length (w_caches w)) end) (w_hc w)
      (w_caches w ++ [mkPC (add_all builtin_procs []) (add_all (builtin_types b) []) [] 0]) (w_made w).

(** A library file: it cannot be loaded (or lacks the symbol), the symbol has the wrong type, or it registers things. *)
Inductive libfile (A : Type) := LFail | LOther | LGood (a : A).
Arguments LFail {A}. Arguments LOther {A}. Arguments LGood {A} a.
Record plib := mkPLib { pl_procs : list (string * pfac); pl_types : list (string * cfac) }.
Record hlib := mkHLib { hl_kind : hkind; hl_handlers : list (string * hfac); hl_types : list (string * cfac) }.
Definition reg_plib (l : plib) (c : pcache) : pcache := mkPC (add_all (pl_procs l) (pc_procs c)) (add_all (pl_types l) (pc_types c)) (pc_chans c) (pc_next c).
Definition reg_types (l : list (string * cfac)) (c : pcache) : pcache := mkPC (pc_procs c) (add_all l (pc_types c)) (pc_chans c) (pc_next c).

Section Host.
Variable b : variant.
Variable plibs : string -> libfile plib.             (* by path *)
Variable hlibs : string -> libfile hlib.
Variable h_init : hkind -> conf -> bool.             (* Init of a plugin's own handler succeeds *)
Variable p_init : pkind -> conf -> bool.             (* Init of an engine, exporter or plugin's own processor succeeds *)
Variable h_accepts : nat -> gtype -> bool.           (* SetOutChan of a plugin's own handler accepts the channel; else it panics *)
Variable p_accepts : nat -> gtype -> bool.           (* the same for a plugin's own processor *)
Variable p_reads : nat -> gtype -> bool.             (* Process of a plugin's own processor accepts its input channel *)

(** handlercache.go:49-72: GetHandlerCacheInstance with the processors' plugin cache.  A nil plugin
    cache panics in AddChannel. *)
Definition hc_instance (w : world) : res (world * gomap hfac) :=
  match w_hc w with
  | Some m => Ok (w, m)
  | None =>
      match w_pc w with
      | None => Panic
      | Some k => let m := [("flattener", HFactory HFlattener)] in
                  let w1 := set_cache k (reg_types [("flattenerchan", CFactory GFlat)]) w in
                  Ok (mkW (w_pc w1) (Some m) (w_caches w1) (w_made w1), m)
      end
  end.
(** handlercache.go:74-94 *)
Definition load_handler (w : world) (m : gomap hfac) (name path : string) : world * option hobj :=
  let file := (path ++ "/" ++ name ++ ".so")%string in
  match hlibs file with
  | LGood l =>
      let w1 := match w_pc w with Some k => set_cache k (reg_types (hl_types l)) w | None => w end in
      (mkW (w_pc w1) (Some (add_all (hl_handlers l) m)) (w_caches w1) (w_made w1), Some (HLib file (hl_kind l)))
  | _ => (w, None)
  end.
(** handlercache.go:101-114.  [Ok (_, None)]: an error. *)
Definition get_handler (w : world) (c : conf) : res (world * option hobj) :=
  let* (w, m) := hc_instance w in
  match mget "handler" c with
  | Some (VStr name) =>
      match mget name m with
      | Some (HFactory k) => Ok (mkW (w_pc w) (w_hc w) (w_caches w) (S (w_made w)), Some (HNew (w_made w) k))
      | Some HJunk => Panic
      | None =>
          match mget "handlerlibpath" c with
          | Some (VStr path) => Ok (load_handler w m name path)
          | _ => Ok (w, None)
          end
      end
  | _ => Ok (w, None)
  end.

(** The requests of the stages of a process, in order. *)
Fixpoint get_handlers (w : world) (cs : list conf) : res (world * list (option hobj)) :=
  match cs with
  | [] => Ok (w, [])
  | c :: cs' => let* (w1, o) := get_handler w c in let* (w2, os) := get_handlers w1 cs' in Ok (w2, o :: os)
  end.

(** plugincache.go:79-100, 217-240: [k] is the pipeline.  [Ok (_, None)]: an error. *)
Definition get_processor (k : nat) (w : world) (dir name : string) : res (world * option pkind) :=
  let lookup w := match nth_error (w_caches w) k with Some c => mget name (pc_procs c) | None => None end in
  let made w f := match f with PFactory p => Ok (w, Some p) | PJunk => Panic end in
  match lookup w with
  | Some f => made w f
  | None =>
      match plibs (dir ++ "/" ++ name ++ ".so")%string with
      | LFail => Ok (w, None)
      | LOther => Ok (w, None)
      | LGood l => let w1 := set_cache k (reg_plib l) w in
                   match lookup w1 with Some f => made w1 f | None => Ok (w1, None) end
      end
  end.
(** processor.go:72-82 for the reader and the processor (the flattener's Init always succeeds);
    the result is the handler, if any, and whether Init succeeded. *)
Definition init_stage (w : world) (p : pkind) (c : conf) : res (world * option hobj * bool) :=
  match p with
  | KReader | KProcessor =>
      let* (w1, o) := get_handler w c in
      match o with
      | None => Ok (w1, None, false)
      | Some h => Ok (w1, Some h, match hobj_kind h with HFlattener => true | _ => h_init (hobj_kind h) c end)
      end
  | _ => Ok (w, None, p_init p c)
  end.
(** plugincache.go:196-214 *)
Definition get_tchan (c : pcache) (req : string) : res (pcache * option tchan) :=
  match fields req with
  | [] | [_] => Panic
  | [id; ty] =>
      match mget id (pc_chans c) with
      | Some ch => Ok (c, Some ch)
      | None => match mget ty (pc_types c) with
                | Some (CFactory t) => let ch := mkTChan (pc_next c) t in
                                       Ok (mkPC (pc_procs c) (pc_types c) (mset id ch (pc_chans c)) (S (pc_next c)), Some ch)
                | Some CJunk => Panic
                | None => Ok (c, None)
                end
      end
  | _ => Ok (c, None)
  end.
(** pipeline.go:140-166, 170-195 *)
Fixpoint tag_list (c : pcache) (l : list pval) : res (pcache * option (list tchan)) :=
  match l with
  | [] => Ok (c, Some [])
  | VStr req :: l' =>
      let* (c1, o) := get_tchan c req in
      match o with
      | None => Ok (c1, None)
      | Some ch => let* (c2, o2) := tag_list c1 l' in Ok (c2, option_map (cons ch) o2)
      end
  | _ :: _ => Panic
  end.
Definition tag_tchans (k : nat) (w : world) (v : pval) : res (world * option (list tchan)) :=
  match nth_error (w_caches w) k with
  | None => Panic
  | Some c =>
      let* (c1, o) := tag_list c (match v with VStr req => [VStr req] | VList l => l | VOther => [] end) in
      Ok (set_cache k (fun _ => c1) w, o)
  end.
(** SetOutChan: the type assertions of flattener.go:82-86 and policyengine.go:207-211; the exporter
    ignores the channels (exporter.go:179). *)
Definition accepts (p : pkind) (h : option hobj) (t : gtype) : bool :=
  match p, option_map hobj_kind h with
  | KReader, Some HFlattener | KProcessor, Some HFlattener => if gtype_eq_dec t GFlat then true else false
  | KReader, Some (HUser n) | KProcessor, Some (HUser n) => h_accepts n t
  | KEngine, _ => if gtype_eq_dec t (record_type b) then true else false
  | KUser n, _ => p_accepts n t
  | _, _ => true
  end.
(** The type assertion on the input channel at the start of Process (reader.go:86, processor.go:95,
    policyengine.go:126, exporter.go:119); a failure is a panic in the stage's goroutine. *)
Definition reads_type (p : pkind) (t : gtype) : bool :=
  match p with
  | KReader => if gtype_eq_dec t GSysFlow then true else false
  | KProcessor => if gtype_eq_dec t GCtx then true else false
  | KEngine => if gtype_eq_dec t (engine_input b) then true else false
  | KExporter => if gtype_eq_dec t (record_type b) then true else false
  | KUser n => p_reads n t
  end.
(** A started stage. *)
Record started := mkStarted { st_kind : pkind; st_hdl : option hobj; st_ins : list tchan; st_outs : list tchan }.
(** Process of the stage panics: with one input channel of the wrong type. *)
Definition crashes (g : started) : bool := match st_ins g with [c] => negb (reads_type (st_kind g) (tc_type c)) | _ => false end.

(** pipeline.go:119-203 for pipeline [k].  Result: the stages started, and whether Load returned an error. *)
Fixpoint load_all (k : nat) (dir : string) (w : world) (p : list conf) : res (world * list started * bool) :=
  match p with
  | [] => Ok (w, [], false)
  | c :: p' =>
      match mget ProcConfig c with
      | Some (VStr name) =>
          let* (w1, okind) := get_processor k w dir name in
          match okind with
          | None => Ok (w1, [], true)
          | Some kind =>
              let* (w2, h, good) := init_stage w1 kind c in
              if good then
                match mget InChanConfig c with
                | None => Ok (w2, [], true)
                | Some v =>
                    let* (w3, oi) := tag_tchans k w2 v in
                    match oi with
                    | None => Ok (w3, [], true)
                    | Some ins =>
                        let* (w4, oo) := (match mget OutChanConfig c with None => Ok (w3, Some []) | Some o => tag_tchans k w3 o end) in
                        match oo with
                        | None => Ok (w4, [], true)
                        | Some outs =>
                            if forallb (fun ch => accepts kind h (tc_type ch)) outs then
                              let* (w5, sgs, err) := load_all k dir w4 p' in Ok (w5, mkStarted kind h ins outs :: sgs, err)
                            else Panic
                        end
                    end
                end
              else Ok (w2, [], true)
          end
      | _ => Ok (w, [], false)
      end
  end.
End Host.
