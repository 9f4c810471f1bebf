(** * Properties C89, C90: whose handler a stage gets; which pipelines start. *)
From Coq Require Import Lia.
From Verif Require Import GoBase GoFacts PluginModel SpecPlugin PluginFacts StartModel SpecStart StartFacts.
Local Open Scope nat_scope.

(** C89.  In every sequence of requests of a process, each request gets a new handler of the kind last
    registered under the name, else the handler of the library <path>/<name>.so, else an error. *)
Theorem C89_resolution :
  forall hlibs b cs w os, get_handlers hlibs (new_pipeline b fresh_world) cs = Ok (w, os) ->
  length os = length cs /\ forall i c o, nth_error cs i = Some c -> nth_error os i = Some o -> answers hlibs (firstn i os) c o.
Proof. exact resolution. Qed.
Print Assumptions C89_resolution.
(** It never crashes, if the libraries register handler factories only. *)
Theorem C89_no_crash :
  forall hlibs b cs, (forall file l name f, hlibs file = LGood l -> In (name, f) (hl_handlers l) -> f <> HJunk) ->
  get_handlers hlibs (new_pipeline b fresh_world) cs <> Panic.
Proof. exact no_crash. Qed.
Print Assumptions C89_no_crash.
(** Two requests get the same handler object only if it is the one exported by a library that does not
    register a factory under the name it is loaded by. *)
Theorem C89_own_handler :
  forall hlibs b cs w os i j h, get_handlers hlibs (new_pipeline b fresh_world) cs = Ok (w, os) -> i < j ->
  nth_error os i = Some (Some h) -> nth_error os j = Some (Some h) ->
  exists c name path l, nth_error cs j = Some c /\ mget "handler" c = Some (VStr name) /\ mget "handlerlibpath" c = Some (VStr path) /\
    h = HLib (path ++ "/" ++ name ++ ".so") (hl_kind l) /\ hlibs (path ++ "/" ++ name ++ ".so")%string = LGood l /\ forall f, ~ In (name, f) (hl_handlers l).
Proof. exact own_handler_lt. Qed.
Print Assumptions C89_own_handler.
(** With such a library the stages do share one object. *)
Theorem C89_not_shared_refuted :
  forall hlibs b name path l c, name <> "flattener" -> mget "handler" c = Some (VStr name) -> mget "handlerlibpath" c = Some (VStr path) ->
  hlibs (path ++ "/" ++ name ++ ".so")%string = LGood l -> (forall f, ~ In (name, f) (hl_handlers l)) ->
  exists w h, get_handlers hlibs (new_pipeline b fresh_world) [c; c] = Ok (w, [Some h; Some h]).
Proof.
  intros hlibs b name path l c Nf Hn Hp Hl No.
  assert (S1 : seqb name "flattener" = false) by (destruct (seqb name "flattener") eqn:Q; [apply seqb_eq in Q; contradiction|reflexivity]).
  unfold get_handlers. eexists _, _.
  unfold get_handler at 1. unfold hc_instance. cbn [new_pipeline fresh_world w_hc w_pc w_caches length rbind]. rewrite Hn.
  cbn [mget]. rewrite S1, Hp. unfold load_handler. rewrite Hl. cbn [rbind set_cache w_hc w_pc w_caches].
  unfold get_handler, hc_instance. cbn [w_hc rbind]. rewrite Hn, add_all_get, (proj2 (last_none _ _) No). cbn [mget]. rewrite S1, Hp.
  unfold load_handler. rewrite Hl. cbn [rbind]. reflexivity.
Qed.
Print Assumptions C89_not_shared_refuted.
(** A library may register the name of the built-in handler: later stages that ask for it get the library's. *)
Theorem C89_builtin_kept_refuted :
  exists hlibs b cs w os c n, get_handlers hlibs (new_pipeline b fresh_world) cs = Ok (w, os) /\
  nth_error cs 2 = Some c /\ mget "handler" c = Some (VStr "flattener") /\ nth_error os 2 = Some (Some (HNew n (HUser 7))).
Proof.
  exists (fun _ => LGood (mkHLib (HUser 1) [("mine", HFactory (HUser 1)); ("flattener", HFactory (HUser 7))] [])), VFlat,
    [[("handler", VStr "flattener")]; [("handler", VStr "mine"); ("handlerlibpath", VStr "/lib")]; [("handler", VStr "flattener")]].
  eexists _, _, _, _. split; [reflexivity|]. split; [reflexivity|]. split; reflexivity.
Qed.
Print Assumptions C89_builtin_kept_refuted.
Definition ex_hlibs (file : string) : libfile hlib :=
  if seqb file "/lib/mine.so" then LGood (mkHLib (HUser 1) [("mine", HFactory (HUser 1)); ("other", HFactory (HUser 2))] [("minechan", CFactory (GUser 1))])
  else if seqb file "/lib/lazy.so" then LGood (mkHLib (HUser 3) [] []) else LFail.
Example C89_case :
  match get_handlers ex_hlibs (new_pipeline VFlat fresh_world)
    [[("handler", VStr "flattener")]; [("handler", VStr "other")]; [("handler", VStr "mine"); ("handlerlibpath", VStr "/lib")]; [("handler", VStr "mine")]; [("handler", VStr "other")];
     [("handler", VStr "lazy"); ("handlerlibpath", VStr "/lib")]; [("handler", VStr "lazy"); ("handlerlibpath", VStr "/lib")]; []; [("handler", VStr "flattener")]] with
  | Ok (_, os) => os = [Some (HNew 0 HFlattener); None; Some (HLib "/lib/mine.so" (HUser 1)); Some (HNew 1 (HUser 1)); Some (HNew 2 (HUser 2));
                       Some (HLib "/lib/lazy.so" (HUser 3)); Some (HLib "/lib/lazy.so" (HUser 3)); None; Some (HNew 3 HFlattener)]
  | _ => False
  end.
Proof. vm_compute. reflexivity. Qed.
Example C89_no_junk : forall file l name f, ex_hlibs file = LGood l -> In (name, f) (hl_handlers l) -> f <> HJunk.
Proof.
  intros file l name f. unfold ex_hlibs. destruct (seqb file _); [intros [= <-] [[= <- <-]|[[= <- <-]|[]]]; discriminate|].
  destruct (seqb file _); [intros [= <-] []|discriminate].
Qed.

Section W.
Variable b : variant.
Variable plibs : string -> libfile plib.
Variable hlibs : string -> libfile hlib.
Variable h_init : hkind -> conf -> bool.
Variable p_init : pkind -> conf -> bool.
Variable h_accepts p_accepts p_reads : nat -> gtype -> bool.
Notation load := (load_all b plibs hlibs h_init p_init h_accepts p_accepts 0).
Notation w0 := (new_pipeline b fresh_world).
(** C90.  A pipeline of built-in stages, whose other settings are in order, loads without error and no
    stage crashes on its input channel, exactly if it is well wired. *)
Theorem C90_loads_iff :
  forall dir p ds, Forall2 says p ds -> Forall2 (settings_ok p_init) p ds ->
  (exists w sgs, load dir w0 p = Ok (w, sgs, false) /\ forall g, In g sgs -> crashes b p_reads g = false) <-> well_wired b ds.
Proof. exact (loads_iff b plibs hlibs h_init p_init h_accepts p_accepts p_reads). Qed.
(** Every stage is then started, with channels of the types of the pipeline's first mentions. *)
Theorem C90_started :
  forall dir p ds w sgs, Forall2 says p ds -> Forall2 (settings_ok p_init) p ds -> load dir w0 p = Ok (w, sgs, false) -> Forall2 (starts_as b ds) ds sgs.
Proof. exact (started_as b plibs hlibs h_init p_init h_accepts p_accepts). Qed.
(** Loading crashes only on an output channel of the wrong type. *)
Theorem C90_crash_only :
  forall dir p ds, Forall2 says p ds -> Forall2 (settings_ok p_init) p ds -> load dir w0 p = Panic ->
  exists d id ty t, In d ds /\ In (id, ty) (wi_outs d) /\ channel_type b ds id t /\ ~ gives b (wi_kind d) t.
Proof. exact (crash_only b plibs hlibs h_init p_init h_accepts p_accepts). Qed.
(** The full property, that a wrong type is reported as an error, is false of the code: on an output
    channel it crashes Load, on an input channel it passes Load and crashes the stage. *)
Theorem C90_wrong_type_reported_refuted :
  (forall k, p_init KEngine k = true) ->
  (exists p ds, Forall2 says p ds /\ Forall2 (settings_ok p_init) p ds /\ forall dir, load dir w0 p = Panic) /\
  (exists p ds, Forall2 says p ds /\ Forall2 (settings_ok p_init) p ds /\ forall dir, exists w g, load dir w0 p = Ok (w, [g], false) /\ crashes b p_reads g = true).
Proof.
  intros I. split.
  - exists [[("processor", VStr "policyengine"); ("in", VStr "a sysflowchan"); ("out", VStr "c ctxchan")]],
      [mkWiring KEngine [("a", "sysflowchan")] [("c", "ctxchan")]].
    split; [repeat constructor|split; [repeat constructor; apply I|]].
    + exists "policyengine". split; [reflexivity|]. unfold names_kind. auto.
    + eexists. split; [reflexivity|]. repeat constructor. exists "a sysflowchan". split; [reflexivity|apply Words_iff; reflexivity].
    + cbn. repeat constructor. exists "c ctxchan". split; [reflexivity|apply Words_iff; reflexivity].
    + intros dir. cbn. rewrite I. destruct b; reflexivity.
  - exists [[("processor", VStr "policyengine"); ("in", VStr "a sysflowchan"); ("out", VStr "e eventchan")]],
      [mkWiring KEngine [("a", "sysflowchan")] [("e", "eventchan")]].
    split; [repeat constructor|split; [repeat constructor; apply I|]].
    + exists "policyengine". split; [reflexivity|]. unfold names_kind. auto.
    + eexists. split; [reflexivity|]. repeat constructor. exists "a sysflowchan". split; [reflexivity|apply Words_iff; reflexivity].
    + cbn. repeat constructor. exists "e eventchan". split; [reflexivity|apply Words_iff; reflexivity].
    + intros dir. eexists _, _. split; [cbn; rewrite I; destruct b; reflexivity|]. destruct b; reflexivity.
Qed.
End W.
Print Assumptions C90_loads_iff.
Print Assumptions C90_started.
Print Assumptions C90_crash_only.
Print Assumptions C90_wrong_type_reported_refuted.

Definition ex_reader : conf := [("processor", VStr "sysflowreader"); ("handler", VStr "flattener"); ("in", VStr "sysflow sysflowchan"); ("out", VStr "flat flattenerchan")].
Definition ex_engine : conf := [("processor", VStr "policyengine"); ("in", VStr "flat flattenerchan"); ("out", VStr "evt eventchan")].
Definition ex_export : conf := [("processor", VStr "exporter"); ("in", VStr "evt eventchan"); ("export", VStr "terminal")].
Definition ex_otel : conf := [("processor", VStr "policyengine"); ("in", VStr "otel otelchan"); ("out", VStr "evt eventchan")].
Definition no_lib {A} (file : string) : libfile A := LFail.
Notation load1 b k w p := (load_all b no_lib no_lib (fun _ _ => true) (fun _ _ => true) (fun _ _ => false) (fun _ _ => false) k "/plugins" w p).
Definition wr := mkWiring KReader [("sysflow", "sysflowchan")] [("flat", "flattenerchan")].
Definition we := mkWiring KEngine [("flat", "flattenerchan")] [("evt", "eventchan")].
Definition wx := mkWiring KExporter [("evt", "eventchan")] [].
Definition wo := mkWiring KEngine [("otel", "otelchan")] [("evt", "eventchan")].
Ltac one := cbv [mentions requests]; repeat (apply Forall2_cons; [eexists; split; [reflexivity|apply Words_iff; reflexivity]|]); apply Forall2_nil.
Ltac say := split; [eexists; split; [reflexivity|unfold names_kind; cbn; auto 6]|split; [eexists; split; [reflexivity|one]|cbn; first [reflexivity|one]]].
Ltac says_all := repeat match goal with |- Forall2 says (_ :: _) _ => apply Forall2_cons; [say|] end; apply Forall2_nil.
(** The shipped pipelines load. *)
Example C90_case : exists w sgs, load1 VFlat 0 (new_pipeline VFlat fresh_world) [ex_reader; ex_engine; ex_export] = Ok (w, sgs, false) /\
  map st_kind sgs = [KReader; KEngine; KExporter] /\ map st_hdl sgs = [Some (HNew 0 HFlattener); None; None] /\
  map st_ins sgs = [[mkTChan 0 GSysFlow]; [mkTChan 1 GFlat]; [mkTChan 2 GEvent]] /\ map st_outs sgs = [[mkTChan 1 GFlat]; [mkTChan 2 GEvent]; []].
Proof. eexists _, _. split; [vm_compute; reflexivity|]. auto. Qed.
Example C90_hypotheses_case : Forall2 says [ex_reader; ex_engine; ex_export] [wr; we; wx] /\ Forall2 (settings_ok (fun _ _ => true)) [ex_reader; ex_engine; ex_export] [wr; we; wx].
Proof. split; [says_all|repeat constructor]. Qed.
Example C90_wired_case : well_wired VFlat [wr; we; wx].
Proof.
  apply (C90_loads_iff VFlat no_lib no_lib (fun _ _ => true) (fun _ _ => true) (fun _ _ => false) (fun _ _ => false) (fun _ _ => false) "/plugins"
           [ex_reader; ex_engine; ex_export] [wr; we; wx] (proj1 C90_hypotheses_case) (proj2 C90_hypotheses_case)).
  eexists _, _. split; [vm_compute; reflexivity|]. intros g [<-|[<-|[<-|[]]]]; reflexivity.
Qed.
Example C90_otel_case : Forall2 says [ex_otel; ex_export] [wo; wx] /\ Forall2 (settings_ok (fun _ _ => true)) [ex_otel; ex_export] [wo; wx] /\ well_wired VOtel [wo; wx].
Proof.
  assert (S : Forall2 says [ex_otel; ex_export] [wo; wx]) by says_all.
  assert (O : Forall2 (settings_ok (fun _ _ => true)) [ex_otel; ex_export] [wo; wx]) by repeat constructor.
  split; [exact S|]. split; [exact O|].
  apply (C90_loads_iff VOtel no_lib no_lib (fun _ _ => true) (fun _ _ => true) (fun _ _ => false) (fun _ _ => false) (fun _ _ => false) "/plugins" [ex_otel; ex_export] [wo; wx] S O).
  eexists _, _. split; [vm_compute; reflexivity|]. intros g [<-|[<-|[]]]; reflexivity.
Qed.
(** In the other build the same file is refused at run time: the engine crashes. *)
Example C90_otel_flat_case : ~ well_wired VFlat [wo; wx].
Proof.
  intros W. destruct C90_otel_case as (S & O & _).
  apply (C90_loads_iff VFlat no_lib no_lib (fun _ _ => true) (fun _ _ => true) (fun _ _ => false) (fun _ _ => false) (fun _ _ => false) "/plugins" _ _ S O) in W.
  destruct W as (w & sgs & E & C). vm_compute in E. injection E as _ <-. discriminate (C _ (or_introl eq_refl)).
Qed.
(** The order of the stages matters, although the channels are named: an engine listed before the
    reader is refused (its input type is not yet registered), after it accepted. *)
Theorem C90_order_free_refuted :
  (exists w sgs, load1 VFlat 0 (new_pipeline VFlat fresh_world) [ex_reader; ex_engine; ex_export] = Ok (w, sgs, false)) /\
  (exists w, load1 VFlat 0 (new_pipeline VFlat fresh_world) [ex_engine; ex_reader; ex_export] = Ok (w, [], true)).
Proof. split; eexists; [eexists|]; vm_compute; reflexivity. Qed.
Print Assumptions C90_order_free_refuted.
(** After the first pipeline a process has made, whatever became of it, no later pipeline of the process
    can have a channel of flattened records (without a plugin that registers one) ... *)
Theorem C90_later_pipelines :
  forall b plibs hlibs h_init p_init h_accepts p_accepts, (forall file l, plibs file <> LGood l) -> (forall file l, hlibs file <> LGood l) ->
  forall n w dir p w' sgs err, after_loads b plibs hlibs h_init p_init h_accepts p_accepts (S n) w ->
  load_all b plibs hlibs h_init p_init h_accepts p_accepts (S n) dir (new_pipeline b w) p = Ok (w', sgs, err) ->
  forall g ch, In g sgs -> In ch (st_ins g ++ st_outs g) -> tc_type ch <> GFlat.
Proof.
  intros b plibs hlibs h_init p_init h_accepts p_accepts NP NH n w dir p w' sgs err A E. destruct (after_pc _ _ _ _ _ _ _ _ _ A) as [L P].
  refine (load_second b plibs hlibs h_init p_init h_accepts p_accepts NP NH dir p (S n) _ w' sgs err _ E).
  rewrite <- L. apply (new_second b h_accepts h_accepts h_accepts w 0 P). lia.
Qed.
Print Assumptions C90_later_pipelines.
(** ... so the pipeline that was loaded is refused when loaded again. *)
Theorem C90_reload_refuted :
  exists w sgs w', load1 VFlat 0 (new_pipeline VFlat fresh_world) [ex_reader; ex_engine; ex_export] = Ok (w, sgs, false) /\
    load1 VFlat 1 (new_pipeline VFlat w) [ex_reader; ex_engine; ex_export] = Ok (w', [], true).
Proof. eexists _, _, _. split; vm_compute; reflexivity. Qed.
Print Assumptions C90_reload_refuted.
(** The processors of the stages, in every pipeline of a process and whether or not loading succeeds:
    the kind last registered in this pipeline under the name, the library <dir>/<name>.so being loaded
    (and registering its processors for the later stages too) if there is none. *)
Theorem C90_processors :
  forall b plibs hlibs h_init p_init h_accepts p_accepts n w dir p w' sgs err,
  after_loads b plibs hlibs h_init p_init h_accepts p_accepts n w ->
  load_all b plibs hlibs h_init p_init h_accepts p_accepts n dir (new_pipeline b w) p = Ok (w', sgs, err) ->
  exists names, Forall2 (fun c name => mget "processor" c = Some (VStr name)) (firstn (length sgs) p) names /\
    resolves plibs dir own_processors names (map st_kind sgs).
Proof.
  intros b plibs hlibs h_init p_init h_accepts p_accepts n w dir p w' sgs err A E. destruct (after_pc _ _ _ _ _ _ _ _ _ A) as [L _]. rewrite <- L in E.
  exact (proj2 (resolution_procs _ _ _ _ _ _ _ _ _ _ _ _ _ E)).
Qed.
Print Assumptions C90_processors.
(** That every entry is loaded or an error is returned is false of the code: an entry without a
    processor's name ends the loading, without an error. *)
Theorem C90_all_entries_refuted :
  forall b plibs hlibs h_init p_init h_accepts p_accepts k dir w p c q, (forall name, mget "processor" c <> Some (VStr name)) ->
  load_all b plibs hlibs h_init p_init h_accepts p_accepts k dir w (p ++ c :: q) = load_all b plibs hlibs h_init p_init h_accepts p_accepts k dir w p.
Proof. intros b plibs hlibs h_init p_init h_accepts p_accepts k dir w p c q N. exact (load_cut _ _ _ _ _ _ _ _ _ _ _ _ _ N). Qed.
Print Assumptions C90_all_entries_refuted.
(** Non-vacuity: a first pipeline without reader; then one with a reader, refused; a pipeline with a
    processor from a library that registers a second one, used later; and one cut short. *)
Definition ex_alone : conf := [("processor", VStr "exporter"); ("in", VStr "evt eventchan")].
Example C90_later_case : exists w sgs w', load1 VFlat 0 (new_pipeline VFlat fresh_world) [ex_alone] = Ok (w, sgs, false) /\ length sgs = 1 /\
  after_loads VFlat no_lib no_lib (fun _ _ => true) (fun _ _ => true) (fun _ _ => false) (fun _ _ => false) 1 w /\
  load1 VFlat 1 (new_pipeline VFlat w) [ex_alone; ex_reader] = Ok (w', sgs, true).
Proof.
  assert (G : exists w sgs w', load1 VFlat 0 (new_pipeline VFlat fresh_world) [ex_alone] = Ok (w, sgs, false) /\ length sgs = 1 /\ load1 VFlat 1 (new_pipeline VFlat w) [ex_alone; ex_reader] = Ok (w', sgs, true)).
  { eexists _, _, _. split; [vm_compute; reflexivity|]. split; [reflexivity|]. vm_compute. reflexivity. }
  destruct G as (w & sgs & w' & E & L & E2). exists w, sgs, w'. split; [exact E|]. split; [exact L|]. split; [|exact E2].
  exact (L_load _ _ _ _ _ _ _ 0 fresh_world "/plugins" [ex_alone] w sgs false (L_start _ _ _ _ _ _ _) E).
Qed.
Definition ex_plibs (file : string) : libfile plib :=
  if seqb file "/plugins/mine.so" then LGood (mkPLib [("mine", PFactory (KUser 1)); ("extra", PFactory (KUser 2))] [("minechan", CFactory (GUser 1))]) else LFail.
Example C90_processors_case : exists w w' sgs, after_loads VFlat ex_plibs no_lib (fun _ _ => true) (fun _ _ => true) (fun _ _ => false) (fun _ _ => true) 0 w /\
  load_all VFlat ex_plibs no_lib (fun _ _ => true) (fun _ _ => true) (fun _ _ => false) (fun _ _ => true) 0 "/plugins" (new_pipeline VFlat w)
    [ex_reader; [("processor", VStr "mine"); ("in", VStr "flat flattenerchan"); ("out", VStr "m minechan")]; [("processor", VStr "extra"); ("in", VStr "m minechan")];
     [("handler", VStr "h")]; ex_engine] = Ok (w', sgs, false) /\ map st_kind sgs = [KReader; KUser 1; KUser 2].
Proof. exists fresh_world. eexists _, _. split; [apply L_start|]. split; vm_compute; reflexivity. Qed.
(** A library that is loaded for a processor registers its channel types too, over the built-in ones: in every pipeline of a process,
    a first stage with such a processor starts with channels of the types registered under the names it mentions. *)
Theorem C90_library :
  forall b plibs hlibs h_init p_init h_accepts p_accepts n w dir c q w' sgs err name l u ri i tyi ti ro o tyo to,
  after_loads b plibs hlibs h_init p_init h_accepts p_accepts n w ->
  mget "processor" c = Some (VStr name) -> (forall f, ~ In (name, f) own_processors) ->
  plibs (dir ++ "/" ++ name ++ ".so")%string = LGood l -> last_said (pl_procs l) name (PFactory (KUser u)) ->
  p_init (KUser u) c = true -> mget "in" c = Some (VStr ri) -> asks ri i tyi -> mget "out" c = Some (VStr ro) -> asks ro o tyo -> i <> o ->
  last_said (own_types b ++ pl_types l) tyi (CFactory ti) -> last_said (own_types b ++ pl_types l) tyo (CFactory to) -> p_accepts u to = true ->
  load_all b plibs hlibs h_init p_init h_accepts p_accepts n dir (new_pipeline b w) (c :: q) = Ok (w', sgs, err) ->
  exists sgs', sgs = mkStarted (KUser u) None [mkTChan 0 ti] [mkTChan 1 to] :: sgs'.
Proof.
  intros b plibs hlibs h_init p_init h_accepts p_accepts n w dir c q w' sgs err name l u ri i tyi ti ro o tyo to.
  change (own_types b) with (builtin_types b). exact (library_types b plibs hlibs h_init p_init h_accepts p_accepts n w dir c q w' sgs err name l u ri i tyi ti ro o tyo to).
Qed.
Print Assumptions C90_library.
(** So does the library of a handler, in the first pipeline of a process. *)
Theorem C90_handler_library :
  forall b plibs hlibs h_init p_init h_accepts p_accepts dir c q w' sgs err k name path l ri i tyi ti ro o tyo to,
  mget "processor" c = Some (VStr name) -> names_kind name k -> has_handler k -> forall hn u,
  mget "handler" c = Some (VStr hn) -> hn <> "flattener" -> mget "handlerlibpath" c = Some (VStr path) ->
  hlibs (path ++ "/" ++ hn ++ ".so")%string = LGood l -> hl_kind l = HUser u -> h_init (HUser u) c = true ->
  mget "in" c = Some (VStr ri) -> asks ri i tyi -> mget "out" c = Some (VStr ro) -> asks ro o tyo -> i <> o ->
  last_said (own_types b ++ ("flattenerchan", CFactory GFlat) :: hl_types l) tyi (CFactory ti) ->
  last_said (own_types b ++ ("flattenerchan", CFactory GFlat) :: hl_types l) tyo (CFactory to) -> h_accepts u to = true ->
  load_all b plibs hlibs h_init p_init h_accepts p_accepts 0 dir (new_pipeline b fresh_world) (c :: q) = Ok (w', sgs, err) ->
  exists sgs', sgs = mkStarted k (Some (HLib (path ++ "/" ++ hn ++ ".so") (HUser u))) [mkTChan 0 ti] [mkTChan 1 to] :: sgs'.
Proof.
  intros b plibs hlibs h_init p_init h_accepts p_accepts dir c q w' sgs err k name path l ri i tyi ti ro o tyo to.
  change (own_types b) with (builtin_types b). exact (handler_types b plibs hlibs h_init p_init h_accepts p_accepts dir c q w' sgs err k name path l ri i tyi ti ro o tyo to).
Qed.
Print Assumptions C90_handler_library.
(** Non-vacuity: a stage of each sort, whose library redefines a built-in type as well. *)
Definition ex_mine : conf := [("processor", VStr "mine"); ("in", VStr "e eventchan"); ("out", VStr "m minechan")].
Definition ex_tlibs (file : string) : libfile plib :=
  if seqb file "/plugins/mine.so" then LGood (mkPLib [("mine", PFactory (KUser 1))] [("minechan", CFactory (GUser 1)); ("eventchan", CFactory (GUser 2))]) else LFail.
Example C90_library_case : exists w, load_all VFlat ex_tlibs no_lib (fun _ _ => true) (fun _ _ => true) (fun _ _ => false) (fun _ _ => true) 0 "/plugins" (new_pipeline VFlat fresh_world) [ex_mine; ex_reader]
    = Ok (w, [mkStarted (KUser 1) None [mkTChan 0 (GUser 2)] [mkTChan 1 (GUser 1)]; mkStarted KReader (Some (HNew 0 HFlattener)) [mkTChan 2 GSysFlow] [mkTChan 3 GFlat]], false) /\
  last_said (own_types VFlat ++ [("minechan", CFactory (GUser 1)); ("eventchan", CFactory (GUser 2))]) "eventchan" (CFactory (GUser 2)) /\
  asks "e eventchan" "e" "eventchan".
Proof.
  eexists. split; [vm_compute; reflexivity|]. split; [|apply Words_iff; reflexivity].
  exists (own_types VFlat ++ [("minechan", CFactory (GUser 1))]), []. split; [reflexivity|]. intros v' [].
Qed.
Definition ex_hread : conf := [("processor", VStr "sysflowreader"); ("handler", VStr "mine"); ("handlerlibpath", VStr "/lib"); ("in", VStr "s sysflowchan"); ("out", VStr "m minechan")].
Example C90_handler_library_case : exists w, load_all VFlat no_lib ex_hlibs (fun _ _ => true) (fun _ _ => true) (fun _ _ => true) (fun _ _ => true) 0 "/plugins" (new_pipeline VFlat fresh_world) [ex_hread]
    = Ok (w, [mkStarted KReader (Some (HLib "/lib/mine.so" (HUser 1))) [mkTChan 0 GSysFlow] [mkTChan 1 (GUser 1)]], false).
Proof. eexists. vm_compute. reflexivity. Qed.
