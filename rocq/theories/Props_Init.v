(** * Properties C85-C88: start-up of the policy engine, from policy files to its output. *)
From Coq Require Import Permutation.
From Verif Require Import GoBase GoFacts Predicates FlatRecord FieldTables Samples FalcoModel SpecFalco SpecFlat SigmaModel LexerModel SpecLexer LexFast
  EngineModel EngineFlat SpecEngine SpecEngineFlat PoolModel SpecPool PoolFacts3 PoolFacts4 MonitorModel SpecMonitor InitModel SpecInit InitFacts LiveFacts
  Props_Grammar.

(** C85.  Without policies the engine starts in enrich mode, passing everything on, and refuses to
    start in alert mode. *)
Theorem C85_without_policies :
  forall (R : Type) (ops : operations R) pmatch ord n h conf, no_policies conf ->
  (mode_is conf EnrichMode -> exists rd, init ops pmatch ord n h conf = Ok (Some rd) /\ pool_start rd = init_bypass) /\
  (mode_is conf AlertMode -> init ops pmatch ord n h conf = Ok None).
Proof.
  intros R ops pmatch ord n h conf H. destruct (init_no_policies ops pmatch ord n h conf H) as [H1 H2].
  split; [|exact H2]. intros Hm. eexists. split; [exact (H1 Hm)|reflexivity].
Qed.
Print Assumptions C85_without_policies.
(** With policies it starts exactly when there are policy files, all of them compile, the number of
    workers is between 0 and 2^31 - 1 and, if the directory is to be monitored, it can be. *)
Theorem C85_starts_iff :
  forall (R : Type) (ops : operations R) pmatch ord n h conf d, policies_in conf d ->
  (exists rd, init ops pmatch ord n h conf = Ok (Some rd)) <->
  ((exists rules filters, compiles ops pmatch ord n h conf d rules filters) /\ (0 <= c_concurrency (fst (create_config conf)) < 2147483648)%Z /\
   (monitor_is conf LocalType -> watchable h d)).
Proof. exact @init_accepts. Qed.
Print Assumptions C85_starts_iff.
(** Then the compiled rules and filters are in force, in the configured number of workers, and no
    other set is queued. *)
Theorem C85_in_force :
  forall (R : Type) (ops : operations R) pmatch ord n h conf d rd, policies_in conf d -> h_perf h = false ->
  init ops pmatch ord n h conf = Ok (Some rd) ->
  exists rules filters, compiles ops pmatch ord n h conf d rules filters /\
    (monitor_is conf NoneType -> pool_start rd = init_static (Z.to_nat (c_concurrency (fst (create_config conf)))) (filters, rules)) /\
    (monitor_is conf LocalType -> pool_start rd = init_monitor (Z.to_nat (c_concurrency (fst (create_config conf)))) (filters, rules) []).
Proof. exact @init_in_force. Qed.
Print Assumptions C85_in_force.
(** Performance logging and the bench options: the rule with the given index, else the given number
    of first rules, else all. *)
Theorem C85_bench_rules :
  forall (R : Type) perf idx size (rules : list (rule R)),
  let n := Z.of_nat (length rules) in
  (perf = false -> bench_rules perf idx size rules = rules) /\
  (perf = true -> (0 <= idx < n)%Z -> exists a ru b, rules = a ++ ru :: b /\ Z.of_nat (length a) = idx /\ bench_rules perf idx size rules = [ru]) /\
  (perf = true -> ~ (0 <= idx < n)%Z -> (0 <= size <= n)%Z ->
     exists b, rules = bench_rules perf idx size rules ++ b /\ Z.of_nat (length (bench_rules perf idx size rules)) = size) /\
  (perf = true -> ~ (0 <= idx < n)%Z -> ~ (0 <= size <= n)%Z -> bench_rules perf idx size rules = rules).
Proof. exact @bench_spec. Qed.
Print Assumptions C85_bench_rules.
(** Refuted: "a bad configuration is refused".  A number of workers outside 0 to 2^31 - 1
    crashes the program; so does a text of digits too long for a number, which is read as the
    largest one (C22). *)
Theorem C85_bad_workers_refuted :
  forall (R : Type) (ops : operations R) pmatch ord n h conf d p, policies_in conf d -> ~ (0 <= c_concurrency (fst (create_config conf)) < 2147483648)%Z ->
  create_interpreter ops pmatch ord n h (fst (create_config conf)) = Ok (Some p) -> (monitor_is conf LocalType -> watchable h d) ->
  init ops pmatch ord n h conf = Panic.
Proof. exact @init_negative. Qed.
Print Assumptions C85_bad_workers_refuted.
(** Refuted: "monitoring does not change which policies are accepted".  Policies in *.yml files or
    in subdirectories only are accepted without monitor and refused with one. *)
Theorem C85_monitored_refused_refuted :
  forall (R : Type) (ops : operations R) pmatch ord n h conf conf' d dr rules filters,
  policies_in conf d -> policies_in conf' d -> monitor_is conf NoneType -> monitor_is conf' LocalType ->
  (0 <= c_concurrency (fst (create_config conf)) < 2147483648)%Z ->
  h_recursive h d = Some (list_recursive dr [".yaml"; ".yml"]) -> h_flat h d = Some (list_file_paths dr ".yaml") ->
  (forall f s, In (f, s) dr -> nested f = true \/ has_suffix f ".yaml" = false) ->
  compiles ops pmatch ord n h conf d rules filters ->
  (exists rd, init ops pmatch ord n h conf = Ok (Some rd)) /\ forall rd, init ops pmatch ord n h conf' <> Ok (Some rd).
Proof. exact @init_yml. Qed.
Print Assumptions C85_monitored_refused_refuted.

(** A directory with one policy file. *)
Definition ex_host (files : list string) : host :=
  mkHost (fun d => if seqb d "/pol" then Some files else None) (fun d => if seqb d "/pol" then Some (list_file_paths (map (fun f => (f, "")) files) ".yaml") else None)
    (fun _ => Some ex_text) (fun _ => Some (ex_ds, false)) (fun _ => None) (fun _ => None) true false.
Definition ex_conf (mon mode conc : string) : gomap cval :=
  [("policies", CStr "/pol"); ("monitor", CStr mon); ("mode", CStr mode); ("concurrency", CStr conc)].
Definition ex_init files mon mode conc := init (sf_ops X0 mappers) (fun _ _ => false) (fun _ _ => []) 9 (ex_host files) (ex_conf mon mode conc).
Definition started (x : res (option (ready sfrec))) : bool := match x with Ok (Some _) => true | _ => false end.
Definition refused (x : res (option (ready sfrec))) : bool := match x with Ok None => true | _ => false end.
Example C85_case :
  started (ex_init ["a.yaml"] "none" "alert" "2") = true /\ started (ex_init ["a.yaml"] "local" "alert" "2") = true /\
  started (ex_init ["a.yml"] "none" "alert" "2") = true /\ refused (ex_init ["a.yml"] "local" "alert" "2") = true /\
  refused (ex_init [] "none" "enrich" "2") = true /\
  ex_init ["a.yaml"] "none" "alert" "-1" = Panic /\ ex_init ["a.yaml"] "none" "alert" "99999999999999999999" = Panic /\
  policies_in (ex_conf "none" "alert" "2") "/pol" /\ no_policies [("mode", CStr "alert")] /\ mode_is [("mode", CStr "alert")] AlertMode /\
  monitor_is (ex_conf "local" "alert" "2") LocalType.
Proof.
  repeat match goal with |- _ /\ _ => split end; try (vm_compute; reflexivity).
  - split; [reflexivity|discriminate].
  - intros d H. discriminate.
  - left. exists "alert". split; [reflexivity|]. left. cbn. auto.
  - left. exists "local". split; [reflexivity|]. left. cbn. auto.
Qed.

(** C86.  From policy files to what leaves the engine: once the engine has finished, under every
    schedule and with any number of workers, each output channel received exactly what becomes of
    the records taken in, as the policy texts say. *)
Theorem C86_texts_to_output :
  forall X M typ, map_str X M "sf.type" = Ok typ ->
  forall pmatch ord n h conf d ah m outCh rd cs s tr,
  policies_in conf d -> language_is conf Falco -> monitor_is conf NoneType -> mode_is conf m ->
  benign ah -> faithful h d -> NoDup outCh ->
  init (sf_ops X M) pmatch ord n h conf = Ok (Some rd) ->
  run (engine_proc (sf_applicable X M) sf_add ah m) (Z.to_nat (c_concurrency (rd_conf rd))) outCh (pool_start rd) cs = (s, tr) ->
  finished s ->
  exists texts dss, texts_of h d texts /\ Forall2 text_reads texts dss /\
  forall c, In c outCh ->
  exists os, Forall2 (disposed X M typ dss m) (taken tr) os /\ Permutation (emitted c tr) (concat os).
Proof. exact plugin_end_to_end. Qed.
Print Assumptions C86_texts_to_output.

Definition ex_sched : list (choice (policies sfrec) sfrec) :=
  [CInput (Some (rec0, ctx_new)); CExpired false; CMain; CWorker 0 1; CWorker 0 1; CWorker 0 1; CWorker 0 1; CInput None; CMain; CMain;
   CWorker 0 0; CWorker 0 0; CWorker 0 1; CWorker 0 1; CMain; CMain; CMain; CMain].
Definition ex_ah0 : ahandler sfrec := new_ahandler [].
Definition ex_names (r : sfrec) : list string := map m_name (ctx_getrules (snd r)).
Example C86_case :
  match ex_init ["a.yaml"] "none" "alert" "2" with
  | Ok (Some rd) =>
      let (s, tr) := run (engine_proc (sf_applicable X0 mappers) sf_add ex_ah0 AlertMode) (Z.to_nat (c_concurrency (rd_conf rd))) [7] (pool_start rd) ex_sched in
      s_main s = MEnd /\ map ex_names (taken tr) = [[]] /\ map ex_names (emitted 7 tr) = [["Shell"]]
  | _ => False
  end.
Proof. vm_compute. auto. Qed.
Example C86_hypotheses_case : (exists typ, map_str X0 mappers "sf.type" = Ok typ) /\ benign ex_ah0 /\ faithful (ex_host ["a.yaml"]) "/pol" /\
  language_is (ex_conf "none" "alert" "2") Falco.
Proof.
  split; [eexists; reflexivity|]. split; [intros a f r H; discriminate|]. split.
  - split; [reflexivity|]. intros paths p _ _. destruct C83_case as (H1 & _ & C & H3 & _). split; [exact H1|].
    intros ds d Hr Hd. split; [exact (H3 ds d Hr Hd)|].
    destruct Hr as (s & Es & Hr). injection Es as <-.
    assert (E : ds = ex_ds) by exact (C78_policy_one_reading_partial _ _ _ C Hr H1).
    subst ds. intros rd it -> Hi. repeat destruct Hd as [Hd|Hd]; try discriminate; [|destruct Hd].
    injection Hd as <-. destruct Hi as [Hi|[]]. discriminate.
  - right. split; [|reflexivity]. intros s H. discriminate.
Qed.

(** C87.  With a monitored directory: the records taken in fall into consecutive eras.  The first is
    governed by the policy texts present at start-up, each later one by the texts some batch of
    changes showed to the compiler, in the order of the batches; every record is disposed of as the
    texts of its era say, and each output channel receives exactly the result. *)
Theorem C87_eras :
  forall X M typ, map_str X M "sf.type" = Ok typ ->
  forall pmatch ord n h conf d ah m outCh rd chs s pol tr,
  policies_in conf d -> language_is conf Falco -> monitor_is conf LocalType -> mode_is conf m ->
  benign ah -> faithful h d -> (forall h', In h' (batches chs) -> faithful h' d) -> NoDup outCh ->
  init (sf_ops X M) pmatch ord n h conf = Ok (Some rd) ->
  live_run (sf_ops X M) pmatch ord n (engine_proc (sf_applicable X M) sf_add ah m)
    (Z.to_nat (c_concurrency (rd_conf rd))) outCh (rd_conf rd) (live_start rd) chs = ((s, pol), tr) ->
  finished s ->
  exists hs eras, subseq hs (batches chs) /\ taken tr = concat (map snd eras) /\
    Forall2 (fun h' era => exists texts, texts_of h' d texts /\ Forall2 text_reads texts (fst era)) (h :: hs) eras /\
    forall c, In c outCh -> exists oss,
      Forall2 (fun era os => Forall2 (disposed X M typ (fst era) m) (snd era) os) eras oss /\
      Permutation (emitted c tr) (concat (map (@concat sfrec) oss)).
Proof. exact live_eras. Qed.
Print Assumptions C87_eras.

(** Two eras: the policies are replaced by an empty policy file in between. *)
Definition ex_host2 : host :=
  mkHost (fun d => if seqb d "/pol" then Some ["a.yaml"] else None) (fun d => Some ["a.yaml"])
    (fun _ => Some ("- list: l items: [x]" ++ "")%string) (fun _ => Some ([DList "l" (mkItems ["x"] false)], false)) (fun _ => None) (fun _ => None) true false.
Definition ex_live : list (lchoice sfrec) :=
  map LCh [CInput (Some (rec0, ctx_new)); CExpired true; CMain; CWorker 0 0; CWorker 0 0] ++
  [LFiles [mkEv op_write "a.yaml"] (mkView (Some ["a.yaml"]) (fun _ => Some "h2")) (Some ["a.yaml"]) ex_host2] ++
  map LCh [CInput (Some (rec0, ctx_new)); CExpired true; CMain; CWorker 0 0; CWorker 0 0; CWorker 0 0; CWorker 0 0; CMain; CMain; CWorker 1 0; CWorker 1 0;
           CInput None; CMain; CMain; CWorker 1 0; CWorker 1 0; CMain; CMain; CMain].
Example C87_case :
  match ex_init ["a.yaml"] "local" "alert" "1" with
  | Ok (Some rd) =>
      let '((s, _), tr) := live_run (sf_ops X0 mappers) (fun _ _ => false) (fun _ _ => []) 9
        (engine_proc (sf_applicable X0 mappers) sf_add ex_ah0 AlertMode) 1 [7] (rd_conf rd) (live_start rd) ex_live in
      s_main s = MEnd /\ length (taken tr) = 2 /\ length (installed tr) = 1 /\ map ex_names (emitted 7 tr) = [["Shell"]]
  | _ => False
  end.
Proof. vm_compute. auto. Qed.
Example C87_hypotheses_case : faithful ex_host2 "/pol" /\ In ex_host2 (batches ex_live).
Proof.
  split; [|cbn; auto]. split; [reflexivity|]. intros paths p _ _.
  set (t := ("- list: l items: [x]" ++ "")%string).
  assert (L : lexes "" t (toks t)) by (apply toks_lexes; vm_compute; discriminate).
  assert (C : forall ts, lexes "" t ts -> SpecGrammar.outputs_closed ts).
  { intros ts H. rewrite (C81_words_unique _ _ _ H L). apply TextFacts.closedb_sound. vm_compute. reflexivity. }
  assert (Rd : reads t [DList "l" (mkItems ["x"] false)]) by (apply (C78_readings_decided_partial _ _ _ L (C _ L)); vm_compute; reflexivity).
  split; [exact Rd|]. intros ds d (s & Es & Hr) Hd. injection Es as <-.
  rewrite (C78_policy_one_reading_partial _ _ _ C Hr Rd) in Hd. destruct Hd as [<-|[]]. split; [reflexivity|]. intros; discriminate.
Qed.

(** A queued policy set governs the first record submitted once the checking interval has elapsed. *)
Theorem C87_picked_up :
  forall (P R : Type) (proc : P -> R -> option R) conc outCh p q s cs s' tr,
  s_main s = MRecv -> s_pi s <> None -> s_monq s = Some (p :: q) ->
  Forall (fun c => c <> CExpired false) cs -> run proc conc outCh s cs = (s', tr) ->
  forall tr1 x tr2, tr = tr1 ++ LSubmit x :: tr2 -> In (LSwap p) tr1.
Proof. exact @pool_picked_up. Qed.
Print Assumptions C87_picked_up.
Example C87_picked_up_case :
  exists cs tr1 tr2, Forall (fun c => c <> CExpired false) cs /\
  snd (run (fun p r : nat => Some (p + r)) 1 [7] (init_monitor 1 10 [20]) cs) = tr1 ++ LSubmit 5 :: tr2.
Proof.
  exists [CInput (Some 5); CExpired true; CMain; CWorker 0 0; CWorker 0 0; CMain; CMain], [LTake 5; LTau; LTau; LTau; LTau; LSwap 20], [].
  split; [repeat constructor; discriminate|]. vm_compute. reflexivity.
Qed.
