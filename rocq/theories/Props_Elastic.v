(** * Property C97: from trace files and policy texts to an Elasticsearch index. *)
From Coq Require Import Lia Permutation.
From Verif Require ReaderModel SpecReader DriverModel SpecDriver DriverFacts.
From Verif Require Import GoBase GoFacts Predicates FlatRecord FieldTables Samples FalcoModel SpecFalco SpecFlat SigmaModel LexerModel SpecLexer LexFast
  EngineModel EngineFlat SpecEngine SpecEngineFlat PoolModel SpecPool MonitorModel SpecMonitor InitModel SpecInit InitFacts LiveFacts
  FlattenModel SpecFlatten ExportModel SpecExport AppModel SpecApp AppFacts ChainModel SpecChain ChainFacts EcsModel SpecEcs ElasticModel SpecElastic ElasticFacts
  Props_Grammar Props_Init Props_App Props_Chain Props_Ecs.
Local Open Scope nat_scope.

Section S.
Variables (P : payloads) (clk : nat -> Z) (ipstr : Z -> string) (jsonsvcs : list service -> string) (hash : flatrec -> Z).
Variables (X : sfgo_fns) (M : gomap fieldmap) (pmatch : string -> string -> bool) (ord : srule -> list nat -> list (string * search)) (n : nat).
Variables (ah : ahandler sfrec) (buffer xstart : Z) (cap : nat).
Variables (E : ecs_fns) (version ecsversion : string).
Hypotheses (Bits : forall o, (0 <= op_bit E o)%Z) (Names : type_names X).

(** C97.  The shipped pipeline with the ECS encoder and the Elasticsearch target, a directory of trace files, a monitored
    policy directory, under every schedule, the bulk indexer's workers sending in any order.  [ix] is the index before,
    [ix'] after the run, [lost] the documents that did not arrive.  The documents sent are one for each event of the stream
    the policies select (in force at the time), and each describes its event, the entities in force, and the rules that
    fired.  What was in the index stays; only these documents come in, under their identifiers; each that is not lost is
    represented by a document of its identifier, and by itself if no two have the same and none was in use. *)
Theorem C97_files_to_index :
  forall typ, map_str X M "sf.type" = Ok typ ->
  forall h conf d m rd fconf tr s x,
  policies_in conf d -> language_is conf Falco -> monitor_is conf LocalType -> mode_is conf m ->
  benign ah -> faithful h d -> (forall h', In h' (shown tr) -> faithful h' d) ->
  InitModel.init (sf_ops X M) pmatch ord n h conf = Ok (Some rd) -> (forall k, (clk k <= clk (S k))%Z) ->
  forall types pc root cfg flag stat open path c p fs rss,
  SpecDriver.names_output types pc root cfg c -> PluginModel.ch_type c = "sysflowchan" -> (forall k, flag k = true) ->
  SpecDriver.names_input cfg path p -> SpecDriver.inputs stat p fs -> Forall2 (SpecDriver.file_records open) fs rss ->
  SpecReader.Sane false (concat rss) ->
  runs P clk ipstr jsonsvcs hash X M pmatch ord n ah buffer xstart cap rd fconf (snd (fst (DriverModel.file_run types pc root cfg flag stat open path))) tr s -> exported s x ->
  forall ix lost ix', es_batches ix (map (ecs_docs X E version ecsversion) (x_batches x)) lost ix' ->
  exists ds out hs eras oss recs docs, Joined (concat rss) ds /\ Passed ipstr jsonsvcs hash fconf (events P ds) out /\
    subseq hs (shown tr) /\ map (fun fr => (fr, ctx_new)) out = concat (map snd eras) /\
    Forall2 (fun h' era => exists texts, texts_of h' d texts /\ Forall2 text_reads texts (fst era)) (h :: hs) eras /\
    Forall2 (fun era os => Forall2 (disposed X M typ (fst era) m) (snd era) os) eras oss /\
    Permutation recs (concat (map (@concat sfrec) oss)) /\
    Forall2 (fun r doc => exists xe, In xe (events P ds) /\ fst r = flatten ipstr jsonsvcs (fst xe) (snd xe) /\
                                     describes X E version ecsversion (fst xe) (snd xe) (snd r) doc) recs docs /\
    only_from ix docs ix' /\ (forall doc, In doc docs -> In doc lost \/ represented ix docs ix' doc) /\
    (NoDup (map e_id docs) -> forall doc, In doc docs -> mget (e_id doc) ix = None -> In doc lost \/ mget (e_id doc) ix' = Some doc).
Proof.
  intros typ Ht h conf d m rd fconf tr s x Hd Hl Hmon Hm Hb Hf Hfs Hi Mono types pc root cfg flag stat open path c p fs rss Oc Ot Fl Np Gf Fr Sn H Ex ix lost ix' Es.
  rewrite (DriverFacts.all_records _ types pc root cfg flag stat open path c p fs rss Oc Ot Fl Np Gf Fr) in H. cbn [fst snd] in H.
  assert (A : source_of (concat rss) (map DriverModel.ASend (concat rss) ++ [DriverModel.AClose; DriverModel.AWait])) by (right; reflexivity).
  destruct (C91_monitored P clk ipstr jsonsvcs hash X M pmatch ord n ah buffer xstart cap typ Ht h conf d m rd fconf (concat rss) _ tr s x Hd Hl Hmon Hm Hb Hf Hfs Hi Mono A Sn H Ex)
    as (ds & out & hs & eras & oss & J & Pa & S1 & T1 & F1 & F2 & Pe).
  set (recs := concat (x_batches x)) in *.
  pose proof (docs_all X E version ecsversion ipstr jsonsvcs Bits Names (events P ds) recs) as D.
  destruct (index_facts ix _ lost ix' Es) as (I1 & I2 & I3). rewrite docs_concat in I1, I2, I3. fold recs in I1, I2, I3.
  exists ds, out, hs, eras, oss, recs, (ecs_docs X E version ecsversion recs). repeat (split; [assumption|]). split; [|auto].
  assert (K : forall r, In r recs -> exists xe, In xe (events P ds) /\ fst r = flatten ipstr jsonsvcs (fst xe) (snd xe)).
  { intros r Hr. exact (eras_in X M ipstr jsonsvcs hash fconf (events P ds) out typ m eras oss r Pa T1 F2 (Permutation_in _ Pe Hr)). }
  specialize (D K). clear - D. induction D as [|r doc rs docs (xe & H1 & H2 & H3 & _) D IH]; constructor; [eauto|exact IH].
Qed.
(** With policies and no monitor, whatever the driver is that delivers the records [rs]: by the texts present at start-up. *)
Theorem C97_static :
  forall typ, map_str X M "sf.type" = Ok typ ->
  forall h conf d m rd fconf rs acts tr s x,
  policies_in conf d -> language_is conf Falco -> monitor_is conf NoneType -> mode_is conf m ->
  benign ah -> faithful h d -> InitModel.init (sf_ops X M) pmatch ord n h conf = Ok (Some rd) ->
  (forall k, (clk k <= clk (S k))%Z) -> source_of rs acts -> SpecReader.Sane false rs ->
  runs P clk ipstr jsonsvcs hash X M pmatch ord n ah buffer xstart cap rd fconf acts tr s -> exported s x ->
  forall ix lost ix', es_batches ix (map (ecs_docs X E version ecsversion) (x_batches x)) lost ix' ->
  exists ds out texts dss os recs docs, Joined rs ds /\ Passed ipstr jsonsvcs hash fconf (events P ds) out /\
    texts_of h d texts /\ Forall2 text_reads texts dss /\
    Forall2 (fun fr o => disposed X M typ dss m (fr, ctx_new) o) out os /\ Permutation recs (concat os) /\
    Forall2 (fun r doc => exists xe, In xe (events P ds) /\ fst r = flatten ipstr jsonsvcs (fst xe) (snd xe) /\
                                     describes X E version ecsversion (fst xe) (snd xe) (snd r) doc) recs docs /\
    only_from ix docs ix' /\ (forall doc, In doc docs -> In doc lost \/ represented ix docs ix' doc) /\
    (NoDup (map e_id docs) -> forall doc, In doc docs -> mget (e_id doc) ix = None -> In doc lost \/ mget (e_id doc) ix' = Some doc).
Proof.
  intros typ Ht h conf d m rd fconf rs acts tr s x Hd Hl Hmon Hm Hb Hf Hi Mono A Sn H Ex ix lost ix' Es.
  destruct (C91_static P clk ipstr jsonsvcs hash X M pmatch ord n ah buffer xstart cap typ Ht h conf d m rd fconf rs acts tr s x Hd Hl Hmon Hm Hb Hf Hi Mono A Sn H Ex)
    as (ds & out & texts & dss & os & J & Pa & T & F & Fo & Pe).
  set (recs := concat (x_batches x)) in *.
  pose proof (docs_all X E version ecsversion ipstr jsonsvcs Bits Names (events P ds) recs) as D.
  destruct (index_facts ix _ lost ix' Es) as (I1 & I2 & I3). rewrite docs_concat in I1, I2, I3. fold recs in I1, I2, I3.
  exists ds, out, texts, dss, os, recs, (ecs_docs X E version ecsversion recs). repeat (split; [assumption|]). split; [|auto].
  assert (K : forall r, In r recs -> exists xe, In xe (events P ds) /\ fst r = flatten ipstr jsonsvcs (fst xe) (snd xe)).
  { intros r Hr. exact (static_in X M ipstr jsonsvcs hash fconf (events P ds) out typ m dss os r Pa Fo (Permutation_in _ Pe Hr)). }
  specialize (D K). clear - D. induction D as [|r doc rs docs (xe & H1 & H2 & H3 & _) D IH]; constructor; [eauto|exact IH].
Qed.
End S.
Print Assumptions C97_files_to_index.
Print Assumptions C97_static.

(** The run of C91's example, its records read from a file, the documents arriving in an empty index. *)
Definition ex_trace (f : string) : DriverModel.file_res ReaderModel.rec := if seqb f "/t/a" then DriverModel.FData (map Some ex_recs) else DriverModel.FOpenErr.
Definition ex_tstat (f : string) : DriverModel.stat_res := if seqb f "/t" then DriverModel.StDir (Some ["a"]) else DriverModel.StNotExist.
Example C97_hypotheses_case : exists rd tr s x ix' acts,
  ex_init ["a.yaml"] "local" "alert" "1" = Ok (Some rd) /\
  SpecDriver.names_output [] PluginModel.empty_cache (Some (PluginModel.mkChan 0 "sysflowchan")) None (PluginModel.mkChan 0 "sysflowchan") /\
  SpecDriver.names_input None "/t" "/t" /\ SpecDriver.inputs ex_tstat "/t" ["/t/a"] /\ Forall2 (SpecDriver.file_records ex_trace) ["/t/a"] [ex_recs] /\
  snd (fst (DriverModel.file_run [] PluginModel.empty_cache (Some (PluginModel.mkChan 0 "sysflowchan")) None (fun _ => true) ex_tstat ex_trace "/t")) = acts /\
  ex_runs rd acts tr s /\ exported s x /\ shown tr = [ex_host2] /\ es_batches [] (map (ecs_docs X0 E0 "v" "e") (x_batches x)) [] ix'.
Proof.
  destruct C91_hypotheses_case as (rd & tr & s & x & H1 & _ & _ & H2 & _ & H3 & H4 & _).
  destruct (all_arrive (map (ecs_docs X0 E0 "v" "e") (x_batches x)) []) as (ix' & H5).
  exists rd, tr, s, x, ix', (complete ex_recs). split; [exact H1|]. split; [constructor; reflexivity|]. split; [constructor|].
  split; [exact (SpecDriver.in_dir ex_tstat "/t" ["a"] eq_refl ltac:(discriminate))|].
  split; [constructor; [|constructor]; eexists; split; [reflexivity|]; unfold ex_recs; cbn [map]; repeat constructor|]. split; [reflexivity|]. auto.
Qed.
(** Two of three documents arriving, the third with the identifier of the first. *)
Example C97_index_case : exists d1 d2 d3 ix', encode_ecs X0 E0 "v" "e" fr1 ctx_new = Ok d1 /\
  encode_ecs X0 E0 "v" "e" (flatten (fun _ => "") (fun _ => "") (ren "/tmp/b") ren_e) ctx_new = Ok d2 /\
  encode_ecs X0 E0 "v" "e" (flatten (fun _ => "") (fun _ => "") (ren "/tmp/c") ren_e) ctx_new = Ok d3 /\
  es_batches [] [[d1; d2]; [d3]] [d1] ix' /\ ix' = [(e_id d2, d2)] /\ represented [] [d1; d2; d3] ix' d3.
Proof.
  destruct (encode_ecs X0 E0 "v" "e" fr1 ctx_new) as [d1| | |] eqn:E1; try (exfalso; revert E1; vm_compute; discriminate).
  destruct C66_case as (_ & d2 & d3 & E2 & E3 & _). exists d1, d2, d3, [(e_id d2, d2)].
  assert (Q : e_id d3 = e_id d2).
  { destruct E0_ok as (B & N & _). apply (C66_same_identity X0 E0 _ _ _ _ _ _ _ _ _ _ _ _ B N E3 E2). reflexivity. }
  assert (I : es_batches [] [[d1; d2]; [d3]] [d1] [(e_id d2, d2)]).
  { apply (es_batch [] [d1; d2] [d2] [d1] [[d3]] []); [apply perm_swap|]. apply (es_batch _ [d3] [d3] [] [] []); [apply Permutation_refl|].
    unfold es_export. cbn [fold_left]. unfold es_create, mhas. cbn [mget mset]. rewrite Q. cbn [mget]. rewrite seqb_refl. constructor. }
  repeat (split; [assumption || reflexivity|]). exists d2. rewrite Q. cbn [mget]. rewrite seqb_refl. split; [reflexivity|]. right. right. split; [right; left; reflexivity|reflexivity].
Qed.
