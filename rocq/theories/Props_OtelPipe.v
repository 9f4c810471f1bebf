(** * Property C101: the OpenTelemetry pipeline, from Kafka messages to Kafka messages. *)
From Coq Require Import Lia Permutation.
From Verif Require DriverModel SpecDriver DriverFacts ExportFacts ExportFacts2 PluginModel.
From Verif Require Import GoBase GoFacts Predicates FalcoModel SpecFalco SigmaModel SpecSigma LexerModel SpecLexer LexFast Samples
  EngineModel SpecEngine OtelModel SpecOtel OtelFacts OtelEngine SpecOtelEngine OtelEngineFacts PoolModel SpecPool PoolFacts3 PoolFacts4
  MonitorModel SpecMonitor InitModel SpecInit InitFacts LiveFacts ExportModel SpecExport ChainModel ChainFacts SpecRest RestFacts OtelPipe SpecOtelPipe OtelPipeFacts
  Props_Grammar Props_Init Props_SigmaLive Props_OtelEngine.
Local Open Scope nat_scope.

Section P.
Variable D : Type.
Variable parse_float : string -> option D.
Variables deq dlt dle : D -> D -> bool.
Variable regcomp : string -> option (string -> string).
Variable enum : logs D -> rule (logs D) -> list string -> list string.
Variables (pmatch : string -> string -> bool) (ord : srule -> list nat -> list (string * search)) (n : nat).
Variables (ah : ahandler (logs D)) (buffer xstart : Z) (cap : nat).
Notation ops := (o_ops D parse_float deq dlt dle regcomp).
Notation o_disposed := (o_disposed D parse_float deq dlt dle).
Notation so_disposed := (so_disposed D parse_float deq dlt dle regcomp pmatch).
Notation stage rd := (o_stage ops pmatch ord n (o_applicable D) (o_add D enum) ah rd buffer).
Notation runs rd := (o_run_to ops pmatch ord n (o_applicable D) (o_add D enum) ah rd buffer xstart cap).
Notation enough rd := (0 < cap /\ 0 < Z.to_nat (c_concurrency (rd_conf rd))).
Notation walked := (walked D enum).

(** C101.  No goroutine sends on, or closes again, a closed channel. *)
Theorem C101_never_crashes :
  forall rd rs acts tr s, o_source rs acts -> runs rd acts tr s -> c_crash s = false.
Proof. intros rd rs acts tr s A H. exact (o_safe _ _ _ _ _ _ _ _ _ _ _ _ _ A tr s H). Qed.

Lemma moment_logs {E} (good : host -> Prop) (gov : host -> E -> Prop) (disp : E -> logs D -> list (logs D) -> Prop) h conf d m rd rs acts tr s x :
  (forall h p, good h -> create_interpreter ops pmatch ord n h (fst (create_config conf)) = Ok (Some p) ->
    exists e, gov h e /\ forall r, regular D r -> disp e r (outs (snd (work (o_applicable D) (o_add D enum) ah m (fst p) (snd p) r)))) ->
  policies_in conf d -> monitor_is conf LocalType -> mode_is conf m -> good h -> (forall h', In h' (o_shown tr) -> good h') ->
  InitModel.init ops pmatch ord n h conf = Ok (Some rd) ->
  o_source rs acts -> Forall (regular D) rs -> runs rd acts tr s -> c_st s 2 = OExp x ->
  exists rs1 rs2 hs eras hand oss rest, rs = rs1 ++ rs2 /\ subseq hs (o_shown tr) /\ rs1 = concat (map snd eras) ++ hand /\ length hand <= 1 /\
    Forall2 (fun h' era => gov h' (fst era)) (h :: hs) eras /\
    Forall2 (fun era os => Forall2 (disp (fst era)) (snd era) os) eras oss /\
    Permutation (concat (map (@concat (logs D)) oss)) ((concat (x_batches x) ++ held x) ++ rest) /\
    (enough rd -> o_still (stage rd) cap s \/ x_open x = false -> rs2 = [] /\ hand = [] /\ rest = [] /\ (x_open x = false -> held x = [])).
Proof.
  intros Hg Hd Hmon Hm Hf Hfs Hi A Rg H Ex.
  destruct (o_moment ops pmatch ord n (o_applicable D) (o_add D enum) ah rd buffer xstart cap acts rs A tr s H)
    as (rs1 & rs2 & chs & e & pol & ltr & x' & es & late & Er & Lr & Tk & Bt & Ex' & _ & Bs & St & Cl).
  rewrite Ex in Ex'. injection Ex' as <-.
  assert (Em : c_mode (rd_conf rd) = m).
  { destruct (proj1 (init_iff _ _ _ _ h conf d rd Hd) Hi) as (p & _ & _ & [[_ ->]|(_ & _ & ->)]); exact (mode_eq _ _ Hm). }
  rewrite Em in *. rewrite <- Bs in Hfs.
  destruct (eras_moment ops pmatch ord n (o_applicable D) (o_add D enum) ah m conf good gov (fun e0 r o => regular D r -> disp e0 r o)) with (h := h) (d := d) (outCh := [2]) (rd := rd) (chs := chs) (s := e) (pol := pol) (tr := ltr)
    as (hs & eras & hand & S1 & T1 & L1 & F1 & I1 & C1); try assumption; [exact o_two|].
  destruct (C1 2 (or_introl eq_refl)) as (oss & rest & F2 & Pe & I2). rewrite Bs in S1.
  exists rs1, rs2, hs, eras, hand, oss, (late ++ rest).
  split; [exact Er|]. split; [exact S1|]. split; [rewrite <- Tk; exact T1|]. split; [exact L1|]. split; [exact F1|]. split.
  { refine (f2_eras (regular D) disp eras oss _ F2). rewrite Er in Rg. apply Forall_app in Rg as [Rg _]. rewrite <- Tk in Rg.
    assert (Rg' : Forall (regular D) (concat (map snd eras) ++ hand)) by (rewrite <- T1; exact Rg). apply Forall_app in Rg' as [Rg' _]. exact Rg'. }
  split; [rewrite Pe, Bt; now rewrite <- !app_assoc|].
  intros [Hc Hn] [Hst|Hx].
  - destruct (St Hc Hn Hst) as (-> & -> & Id). rewrite (I1 Hn Id), (I2 Hn Id). repeat split. intros Hx. unfold held. now rewrite Hx.
  - destruct (Cl Hx) as (-> & -> & Hh & Id). rewrite (I1 Hn Id), (I2 Hn Id). auto.
Qed.
Lemma moment_fixed {E} (good : host -> Prop) (gov : host -> E -> Prop) (disp : E -> logs D -> list (logs D) -> Prop) h conf d m rd rs acts tr s x :
  (forall h p, good h -> create_interpreter ops pmatch ord n h (fst (create_config conf)) = Ok (Some p) ->
    exists e, gov h e /\ forall r, regular D r -> disp e r (outs (snd (work (o_applicable D) (o_add D enum) ah m (fst p) (snd p) r)))) ->
  policies_in conf d -> monitor_is conf NoneType -> mode_is conf m -> good h ->
  InitModel.init ops pmatch ord n h conf = Ok (Some rd) ->
  o_source rs acts -> Forall (regular D) rs -> runs rd acts tr s -> c_st s 2 = OExp x ->
  exists rs1 rs2 e os rest, rs = rs1 ++ rs2 /\ gov h e /\ Forall2 (disp e) rs1 os /\
    Permutation (concat os) ((concat (x_batches x) ++ held x) ++ rest) /\
    (enough rd -> o_still (stage rd) cap s \/ x_open x = false -> rs2 = [] /\ rest = [] /\ (x_open x = false -> held x = [])).
Proof.
  intros Hg Hd Hmon Hm Hf Hi A Rg H Ex.
  destruct (o_moment ops pmatch ord n (o_applicable D) (o_add D enum) ah rd buffer xstart cap acts rs A tr s H)
    as (rs1 & rs2 & chs & e & pol & ltr & x' & es & late & Er & Lr & Tk & Bt & Ex' & _ & Bs & St & Cl).
  rewrite Ex in Ex'. injection Ex' as <-.
  assert (Em : c_mode (rd_conf rd) = m).
  { destruct (proj1 (init_iff _ _ _ _ h conf d rd Hd) Hi) as (p & _ & _ & [[_ ->]|(_ & _ & ->)]); exact (mode_eq _ _ Hm). }
  rewrite Em in *. unfold live_start in Lr. destruct (live_projects _ _ _ _ _ _ _ _ _ _ _ _ _ _ Lr) as (cs & _ & _ & Hr & _).
  destruct (static_moment ops pmatch ord n (o_applicable D) (o_add D enum) ah m conf good gov (fun e0 r o => regular D r -> disp e0 r o)) with (h := h) (d := d) (outCh := [2]) (rd := rd) (cs := cs) (s := e) (tr := ltr)
    as (e0 & G & Q); try assumption; [exact o_two|].
  destruct (Q 2 (or_introl eq_refl)) as (os & rest & F2 & Pe & I2).
  exists rs1, rs2, e0, os, (late ++ rest). split; [exact Er|]. split; [exact G|]. split.
  { refine (f2_restrict (regular D) (disp e0) rs1 os _ _); [rewrite Er in Rg; apply Forall_app in Rg as [Rg _]; exact Rg|rewrite <- Tk; exact F2]. }
  split; [etransitivity; [exact Pe|]; rewrite app_assoc; apply Permutation_refl'; exact (f_equal (fun z => z ++ rest) Bt)|].
  intros [Hc Hn] [Hst|Hx].
  - destruct (St Hc Hn Hst) as (-> & -> & Id). rewrite (I2 Hn Id). repeat split. intros Hx. unfold held. now rewrite Hx.
  - destruct (Cl Hx) as (-> & -> & Hh & Id). rewrite (I2 Hn Id). auto.
Qed.

(** At every moment of a run, with a monitored policy directory: the exporter's batches and what it
    holds for the next one are part of what becomes of a first part of the logs, by the policy texts
    of the era each falls into; at most one log is in the engine's main loop, the others of that part
    are on their way ([rest]).  When the pipeline has come to rest, or the exporter has seen the end of
    its channel, nothing is on its way. *)
Theorem C101_every_moment :
  walked -> harmless D ah -> forall h conf d m rd rs acts tr s x,
  policies_in conf d -> language_is conf Falco -> monitor_is conf LocalType -> mode_is conf m ->
  faithful h d -> (forall h', In h' (o_shown tr) -> faithful h' d) ->
  InitModel.init ops pmatch ord n h conf = Ok (Some rd) ->
  o_source rs acts -> Forall (regular D) rs -> runs rd acts tr s -> c_st s 2 = OExp x ->
  exists rs1 rs2 hs eras hand oss rest, rs = rs1 ++ rs2 /\ subseq hs (o_shown tr) /\ rs1 = concat (map snd eras) ++ hand /\ length hand <= 1 /\
    Forall2 (fun h' era => exists texts, texts_of h' d texts /\ Forall2 text_reads texts (fst era)) (h :: hs) eras /\
    Forall2 (fun era os => Forall2 (o_disposed (fst era) m) (snd era) os) eras oss /\
    Permutation (concat (map (@concat (logs D)) oss)) ((concat (x_batches x) ++ held x) ++ rest) /\
    (enough rd -> o_still (stage rd) cap s \/ x_open x = false -> rs2 = [] /\ hand = [] /\ rest = [] /\ (x_open x = false -> held x = [])).
Proof.
  intros W Hh h conf d m rd rs acts tr s x Hd Hl Hmon Hm Hf Hfs.
  apply (moment_logs (fun h' => faithful h' d) (fun h' dss => exists texts, texts_of h' d texts /\ Forall2 text_reads texts dss) (fun dss => o_disposed dss m)) with (d := d) (m := m); try assumption.
  intros h' p Hg Hp. exact (interpreter_logs D parse_float deq dlt dle regcomp enum W pmatch ord n h' conf d ah m p Hd Hl Hh Hg Hp).
Qed.
(** Sigma rules. *)
Theorem C101_every_moment_sigma :
  walked -> walks ord -> harmless D ah -> forall h conf d m rd rs acts tr s x,
  policies_in conf d -> language_is conf Sigma -> monitor_is conf LocalType -> mode_is conf m ->
  h_perf h = false -> (forall h', In h' (o_shown tr) -> h_perf h' = false) ->
  InitModel.init ops pmatch ord n h conf = Ok (Some rd) ->
  o_source rs acts -> Forall (regular D) rs -> runs rd acts tr s -> c_st s 2 = OExp x ->
  exists rs1 rs2 hs eras hand oss rest, rs = rs1 ++ rs2 /\ subseq hs (o_shown tr) /\ rs1 = concat (map snd eras) ++ hand /\ length hand <= 1 /\
    Forall2 (fun h' era => sigma_of h' conf d (fst era)) (h :: hs) eras /\
    Forall2 (fun era os => Forall2 (so_disposed (fst (fst era)) (snd (fst era)) m) (snd era) os) eras oss /\
    Permutation (concat (map (@concat (logs D)) oss)) ((concat (x_batches x) ++ held x) ++ rest) /\
    (enough rd -> o_still (stage rd) cap s \/ x_open x = false -> rs2 = [] /\ hand = [] /\ rest = [] /\ (x_open x = false -> held x = [])).
Proof.
  intros W Wo Hh h conf d m rd rs acts tr s x Hd Hl Hmon Hm Hf Hfs.
  apply (moment_logs (fun h' => h_perf h' = false) (fun h' ms => sigma_of h' conf d ms) (fun ms => so_disposed (fst ms) (snd ms) m)) with (d := d) (m := m); try assumption.
  intros h' p Hg Hp. exact (interpreter_slogs D parse_float deq dlt dle regcomp enum W pmatch ord n Wo h' conf d ah m p Hd Hl Hh Hg Hp).
Qed.
(** Without a monitor, and without policies. *)
Theorem C101_every_moment_static :
  walked -> harmless D ah -> forall h conf d m rd rs acts tr s x,
  policies_in conf d -> language_is conf Falco -> monitor_is conf NoneType -> mode_is conf m -> faithful h d ->
  InitModel.init ops pmatch ord n h conf = Ok (Some rd) ->
  o_source rs acts -> Forall (regular D) rs -> runs rd acts tr s -> c_st s 2 = OExp x ->
  exists rs1 rs2 texts dss os rest, rs = rs1 ++ rs2 /\ texts_of h d texts /\ Forall2 text_reads texts dss /\ Forall2 (o_disposed dss m) rs1 os /\
    Permutation (concat os) ((concat (x_batches x) ++ held x) ++ rest) /\
    (enough rd -> o_still (stage rd) cap s \/ x_open x = false -> rs2 = [] /\ rest = [] /\ (x_open x = false -> held x = [])).
Proof.
  intros W Hh h conf d m rd rs acts tr s x Hd Hl Hmon Hm Hf Hi A Rg H Ex.
  destruct (moment_fixed (fun h' => faithful h' d) (fun h' dss => exists texts, texts_of h' d texts /\ Forall2 text_reads texts dss) (fun dss => o_disposed dss m)) with (h := h) (conf := conf) (d := d) (m := m) (rd := rd) (rs := rs) (acts := acts) (tr := tr) (s := s) (x := x)
    as (rs1 & rs2 & dss & os & rest & Er & (texts & T1 & T2) & Q); try assumption.
  { intros h' p Hg Hp. exact (interpreter_logs D parse_float deq dlt dle regcomp enum W pmatch ord n h' conf d ah m p Hd Hl Hh Hg Hp). }
  exists rs1, rs2, texts, dss, os, rest. auto.
Qed.
Theorem C101_every_moment_bypass :
  forall h conf rd rs acts tr s x,
  no_policies conf -> InitModel.init ops pmatch ord n h conf = Ok (Some rd) -> o_source rs acts -> runs rd acts tr s -> c_st s 2 = OExp x ->
  exists rest, rs = (concat (x_batches x) ++ held x) ++ rest /\
    (enough rd -> o_still (stage rd) cap s \/ x_open x = false -> rest = [] /\ (x_open x = false -> held x = [])).
Proof.
  intros h conf rd rs acts tr s x Hn Hi A H Ex.
  destruct (o_moment ops pmatch ord n (o_applicable D) (o_add D enum) ah rd buffer xstart cap acts rs A tr s H)
    as (rs1 & rs2 & chs & e & pol & ltr & x' & es & late & Er & Lr & Tk & Bt & Ex' & _ & Bs & St & Cl).
  rewrite Ex in Ex'. injection Ex' as <-.
  assert (Es : pool_start rd = init_bypass).
  { destruct (init_no_policies ops pmatch ord n h conf Hn) as [H1 H2]. destruct (conf_parts conf) as (_ & _ & _ & Hm & _).
    destruct (c_mode (fst (create_config conf))); [rewrite (H1 Hm) in Hi; injection Hi as <-; reflexivity|]. rewrite (H2 Hm) in Hi. discriminate. }
  unfold live_start in Lr. destruct (live_projects _ _ _ _ _ _ _ _ _ _ _ _ _ _ Lr) as (cs & _ & _ & Hr & _). rewrite Es in Hr.
  destruct (bypass_moment _ _ _ o_two _ _ _ Hr 2 (or_introl eq_refl)) as (rest & Q1 & _ & Q2).
  exists (late ++ rest ++ rs2). split.
  { rewrite Er. rewrite (app_assoc late), app_assoc. f_equal. rewrite app_assoc. rewrite <- Tk. transitivity (emitted 2 ltr ++ rest); [exact Q1|]. f_equal. exact Bt. }
  intros [Hc Hn'] [Hst|Hx].
  - destruct (St Hc Hn' Hst) as (-> & -> & Id). rewrite (Q2 Id). split; [reflexivity|]. intros Hx. unfold held. now rewrite Hx.
  - destruct (Cl Hx) as (-> & -> & Hh & Id). rewrite (Q2 Id). auto.
Qed.
(** It does come to rest, from wherever it is, by steps of its goroutines alone; such steps cannot go
    on for ever.  What is held leaves with a tick more than a second after the last flush. *)
Theorem C101_comes_to_rest :
  forall rd rs acts tr s, enough rd -> o_source rs acts -> runs rd acts tr s ->
  (exists tr' s', runs rd acts (tr ++ tr') s' /\ o_still (stage rd) cap s' /\ Forall o_working tr') /\
  Acc (fun s2 s1 => exists ia, o_working ia /\ cstep (stage rd) cap s1 ia s2) s.
Proof.
  intros rd rs acts tr s [Hc Hn] A H. split.
  - exact (o_comes_to_rest _ _ _ _ _ _ _ rd buffer xstart cap acts rs A tr s Hc Hn H).
  - apply o_terminates; assumption.
Qed.
Theorem C101_flushed :
  forall rd rs acts tr s x now, o_source rs acts -> runs rd acts tr s -> c_st s 2 = OExp x -> x_open x = true -> (now - x_last x > 1000000000)%Z ->
  exists s' x', runs rd acts (tr ++ [(2, TStep None)]) s' /\ c_st s' 2 = OExp x' /\
    held x' = [] /\ concat (x_batches x') = concat (x_batches x) ++ held x /\
    (forall i, i <> 2 -> c_st s' i = c_st s i) /\ c_ch s' = c_ch s /\ c_closed s' = c_closed s.
Proof.
  intros rd rs acts tr s x now A H Ex Ho Hn.
  pose proof (C101_never_crashes rd rs acts tr s A H) as Cr.
  destruct (o_moment ops pmatch ord n (o_applicable D) (o_add D enum) ah rd buffer xstart cap acts rs A tr s H)
    as (rs1 & rs2 & chs & e & pol & ltr & x' & es & late & _ & _ & _ & _ & Ex' & Exx & _).
  rewrite Ex in Ex'. injection Ex' as <-.
  pose proof (ExportFacts.run_good (R := logs D) buffer xstart es) as [G _]. rewrite <- Exx in G. specialize (G Ho).
  eexists _, (x_step buffer x (XTick now now)). split.
  { econstructor; [exact H|]. apply cs_step; [exact Cr|]. rewrite Ex. apply og_exp. apply ox_tick. exact Ho. }
  cbn [c_st c_ch c_closed]. unfold set. rewrite Nat.eqb_refl. split; [reflexivity|].
  assert (T : Z.ltb maxIdle (now - x_last x) = true) by (apply Z.ltb_lt; unfold maxIdle; lia).
  assert (K : held (x_step buffer x (XTick now now)) = [] /\ concat (x_batches (x_step buffer x (XTick now now))) = concat (x_batches x) ++ held x).
  { unfold x_step. rewrite Ho, T. cbn [andb]. destruct (Z.ltb_spec 0 (x_counter x)) as [Hp|Hp].
    - unfold x_flush, held. cbn [x_open x_recs x_batches]. rewrite Ho, concat_app. cbn. now rewrite app_nil_r.
    - assert (En : x_recs x = []) by (destruct (x_recs x); [reflexivity|cbn [length] in G; lia]). unfold held. rewrite Ho, En. now rewrite app_nil_r. }
  destruct K as [K1 K2]. split; [exact K1|]. split; [exact K2|]. split; [|auto].
  intros i Hi. destruct (Nat.eqb_spec 2 i) as [<-|_]; [now destruct Hi|reflexivity].
Qed.

(** From Kafka to Kafka.  Whatever happens on the input topic, the messages produced so far are the
    encodings of the logs of the batches, in order, without those that cannot be encoded or that the
    producer refuses; the batches are as in C101_every_moment for the logs heard on the topic. *)
Lemma heard_source (parse : string -> option (list (logs D))) c : seqb (PluginModel.ch_type c) DriverModel.otel_chan = true ->
  forall es rs, heard parse es rs -> o_source rs (fst (DriverModel.kafka_run parse (Some c) es)).
Proof.
  intros T es rs H. unfold DriverModel.kafka_run. rewrite T. induction H as [|m a es rs Pm H IH|es rs H IH|es|m es Pm]; cbn [DriverModel.kloop].
  - exists []. auto.
  - rewrite Pm. destruct (DriverModel.kloop parse es) as [acts o]. destruct IH as (tl & E & Q). cbn [fst] in *. exists tl. rewrite E, map_app, app_assoc. auto.
  - exact IH.
  - exists [DriverModel.AClose]. auto.
  - rewrite Pm. exists [DriverModel.AClose]. auto.
Qed.
Theorem C101_kafka_to_kafka :
  walked -> harmless D ah -> forall h conf d m rd parse c es rs tr s x,
  policies_in conf d -> language_is conf Falco -> monitor_is conf LocalType -> mode_is conf m ->
  faithful h d -> (forall h', In h' (o_shown tr) -> faithful h' d) ->
  InitModel.init ops pmatch ord n h conf = Ok (Some rd) ->
  PluginModel.ch_type c = "otelchan" -> heard parse es rs -> Forall (regular D) rs ->
  runs rd (fst (DriverModel.kafka_run parse (Some c) es)) tr s -> c_st s 2 = OExp x ->
  forall (enc : logs D -> option string) ok, (forall k, ok k = true) ->
  let produced := delivered (process_all (encode_skip (fun r => option_map DBytes (enc r))) (fun i ds => (kafka_export ok i ds, false)) 0 (x_batches x)) in
  exists rs1 rs2 hs eras hand oss recs rest, rs = rs1 ++ rs2 /\ subseq hs (o_shown tr) /\ rs1 = concat (map snd eras) ++ hand /\ length hand <= 1 /\
    Forall2 (fun h' era => exists texts, texts_of h' d texts /\ Forall2 text_reads texts (fst era)) (h :: hs) eras /\
    Forall2 (fun era os => Forall2 (o_disposed (fst era) m) (snd era) os) eras oss /\
    Permutation (concat (map (@concat (logs D)) oss)) (recs ++ rest) /\
    produced = flat_map (fun r => match enc r with Some t => [t] | None => [] end) recs /\
    (enough rd -> o_still (stage rd) cap s \/ x_open x = false -> rs2 = [] /\ hand = [] /\ rest = held x /\ (x_open x = false -> held x = [])).
Proof.
  intros W Hh h conf d m rd parse c es rs tr s x Hd Hl Hmon Hm Hf Hfs Hi Tc Hr Rg H Ex enc ok Hok produced.
  assert (T : seqb (PluginModel.ch_type c) DriverModel.otel_chan = true) by (rewrite Tc; reflexivity).
  destruct (C101_every_moment W Hh h conf d m rd rs _ tr s x Hd Hl Hmon Hm Hf Hfs Hi (heard_source parse c T es rs Hr) Rg H Ex)
    as (rs1 & rs2 & hs & eras & hand & oss & rest & Er & S1 & T1 & L1 & F1 & F2 & Pe & Q).
  exists rs1, rs2, hs, eras, hand, oss, (concat (x_batches x)), (held x ++ rest).
  repeat (split; [assumption|]). split; [rewrite app_assoc; exact Pe|]. split.
  { unfold produced. rewrite ExportFacts2.skip_delivered by exact Hok. apply flat_map_ext. intros r. destruct (enc r); reflexivity. }
  intros En Ho. destruct (Q En Ho) as (-> & -> & -> & K). rewrite app_nil_r. auto.
Qed.
End P.
Print Assumptions C101_never_crashes.
Print Assumptions C101_every_moment.
Print Assumptions C101_every_moment_sigma.
Print Assumptions C101_every_moment_static.
Print Assumptions C101_every_moment_bypass.
Print Assumptions C101_comes_to_rest.
Print Assumptions C101_flushed.
Print Assumptions C101_kafka_to_kafka.

(** Two messages (of two logs and of none), a request to stop, a third message, then one that is not
    of logs; a monitored policy directory whose files are replaced before the first log: the hypotheses
    are met by a run that comes to rest. *)
Definition px_init := init lx_ops (fun _ _ => false) (fun _ _ => []) 9 (ex_host ["a.yaml"]) (ex_conf "local" "alert" "1").
Definition px_parse (m : string) : option (list (logs Z)) :=
  if seqb m "m1" then Some [lx_log "zsh"; lx_log "vi"] else if seqb m "m2" then Some [] else if seqb m "m3" then Some [lx_log "ksh"] else None.
Definition px_chan : PluginModel.chan := PluginModel.mkChan 0 "otelchan".
Definition px_evs : list DriverModel.kev :=
  [DriverModel.KMsg "m1"; DriverModel.KMsg "m2"; DriverModel.KStop; DriverModel.KMsg "m3"; DriverModel.KMsg "oops"; DriverModel.KMsg "m1"].
Definition px_files : lchoice (logs Z) := LFiles [mkEv op_write "a.yaml"] (mkView (Some ["a.yaml"]) (fun _ => Some "h2")) (Some ["a.yaml"]) ex_host2.
Notation px_add := (o_add Z (fun _ _ l => l)).
Definition px_runs rd := o_run_to lx_ops (fun _ _ => false) (fun _ _ => []) 9 (o_applicable Z) px_add lx_ah rd 2 0 1.
Lemma px_first_step : match px_init with
  | Ok (Some rd) => Z.to_nat (c_concurrency (rd_conf rd)) = 1 /\
      match oeng_step lx_ops (fun _ _ => false) (fun _ _ => []) 9 (o_applicable Z) px_add lx_ah rd (live_start rd) px_files with
      | Some (_, ls) => oeng_act px_files ls = TStep (Some ex_host2)
      | None => False
      end
  | _ => False
  end.
Proof. vm_compute. auto. Qed.
Example C101_hypotheses_case :
  let rs := [lx_log "zsh"; lx_log "vi"; lx_log "ksh"] in
  let acts := fst (DriverModel.kafka_run px_parse (Some px_chan) px_evs) in
  heard px_parse px_evs rs /\ Forall (regular Z) rs /\ walked Z (fun _ _ l => l) /\ harmless Z lx_ah /\
  policies_in (ex_conf "local" "alert" "1") "/pol" /\ language_is (ex_conf "local" "alert" "1") Falco /\
  monitor_is (ex_conf "local" "alert" "1") LocalType /\ mode_is (ex_conf "local" "alert" "1") AlertMode /\ faithful (ex_host ["a.yaml"]) "/pol" /\
  exists rd tr s x, px_init = Ok (Some rd) /\ px_runs rd acts tr s /\
    o_still (o_stage lx_ops (fun _ _ => false) (fun _ _ => []) 9 (o_applicable Z) px_add lx_ah rd 2) 1 s /\
    c_st s 2 = OExp x /\ o_shown tr = [ex_host2] /\ faithful ex_host2 "/pol".
Proof.
  intros rs acts.
  assert (Hh : heard px_parse px_evs rs).
  { apply (h_msg px_parse "m1" [lx_log "zsh"; lx_log "vi"] _ [lx_log "ksh"] eq_refl), (h_msg px_parse "m2" [] _ [lx_log "ksh"] eq_refl), h_stop, (h_msg px_parse "m3" [lx_log "ksh"] _ [] eq_refl), h_bad. reflexivity. }
  destruct C93_hypotheses_case as (Hw & Ha & Hf & _). destruct C86_hypotheses_case as (P1 & _).
  split; [exact Hh|]. split.
  { assert (Rg : forall p, regular Z (lx_log p)).
    { intros p. exists (Some [("sf.proc.name", AStr Z p)]), [mkSL Z None [[("sf.opflags", AStr Z "EXEC")]]]. split; [|left; reflexivity]. constructor; [intros s H; discriminate|constructor]. }
    constructor; [apply Rg|constructor; [apply Rg|constructor; [apply Rg|constructor]]]. }
  split; [exact Hw|]. split; [exact Ha|].
  split; [split; [reflexivity|discriminate]|].
  split; [right; split; [intros s H; discriminate|reflexivity]|].
  split; [left; exists "local"; split; [reflexivity|left; right; left; reflexivity]|].
  split; [left; exists "alert"; split; [reflexivity|left; right; left; reflexivity]|]. split; [exact Hf|].
  pose proof px_first_step as F. destruct px_init as [[rd|]| | |] eqn:E; try destruct F.
  rename H into Hc, H0 into H1.
  destruct (oeng_step lx_ops (fun _ _ => false) (fun _ _ => []) 9 (o_applicable Z) px_add lx_ah rd (live_start rd) px_files) as [[e' ls]|] eqn:Es; [|destruct H1].
  assert (A : o_source rs acts) by exact (heard_source Z px_parse px_chan eq_refl px_evs rs Hh).
  assert (H : px_runs rd acts [(1, TStep (Some ex_host2))] (mkC (set (o_start rd 0 acts) 1 (OEng e')) (fun _ => []) (fun _ => false) false)).
  { apply (cr_snoc _ _ _ [] _ _ _ (cr_nil _ _ _)). apply cs_step; [reflexivity|]. rewrite <- H1. apply og_eng. exact Es. }
  assert (Hn : 0 < Z.to_nat (c_concurrency (rd_conf rd))) by (rewrite Hc; auto).
  destruct (C101_comes_to_rest Z (fun _ => None) Z.eqb Z.ltb Z.leb (fun _ => Some (fun s => s)) (fun _ _ l => l) (fun _ _ => false) (fun _ _ => []) 9 lx_ah 2 0 1 rd rs acts _ _ (conj (le_n 1) Hn) A H) as [(tr' & s' & H' & St & W) _].
  destruct (o_moment _ _ _ _ _ _ _ _ _ _ _ _ _ A _ _ H') as (_ & _ & _ & _ & _ & _ & x & _ & _ & _ & _ & _ & _ & Ex & _).
  exists rd, ([(1, TStep (Some ex_host2))] ++ tr'), s', x. repeat (split; [first [reflexivity|assumption]|]). split; [|exact (proj1 C87_hypotheses_case)].
  cbn [List.app]. unfold o_shown. cbn [flat_map snd]. cbn [List.app]. f_equal.
  clear - W. induction W as [|[i a] l [_ Wk] _ IH]; [reflexivity|]. cbn [flat_map snd] in *. rewrite IH, app_nil_r. destruct a as [| | |[h'|]|]; try reflexivity. destruct (Wk h' eq_refl).
Qed.
