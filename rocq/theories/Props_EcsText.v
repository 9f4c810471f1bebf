(** * Property C108: what is written for an ECS document. *)
From Coq Require Import Lia Permutation.
From Verif Require ReaderModel SpecReader DriverModel SpecDriver DriverFacts.
From Verif Require Import GoBase GoFacts Predicates FlatRecord FieldTables Samples FalcoModel SpecFalco SpecFlat SigmaModel LexerModel SpecLexer LexFast
  EngineModel EngineFlat SpecEngine SpecEngineFlat PoolModel SpecPool MonitorModel SpecMonitor InitModel SpecInit InitFacts LiveFacts
  FlattenModel SpecFlatten ExportModel SpecExport AppModel SpecApp AppFacts ChainModel SpecChain ChainFacts JsonModel SpecJson JsonFacts2 EcsModel SpecEcs EcsFacts EcsFacts2 EcsFacts3 ElasticModel SpecElastic ElasticFacts
  EcsText SpecEcsText EcsTextFacts Props_Grammar Props_Init Props_App Props_Chain Props_Ecs.
Local Open Scope nat_scope.

(** C108.  The text of every document the encoder makes is JSON.  It denotes one value, no object in it has two members of the same name, and but
    for the order of members that value is the document's ([doc_value]). *)
Theorem C108_document : forall X E version ecsversion fr ctx d txt, (forall s, clean s (txt s)) ->
  encode_ecs X E version ecsversion fr ctx = Ok d ->
  exists v, (forall v', jtext (marshal_ecs d) v' <-> v' = v) /\ unique v /\ upto v (doc_value txt d).
Proof.
  intros X E version ecsversion fr ctx d txt Hc H. destruct (doc_good txt Hc d (wf_encoded X E version ecsversion fr ctx d H)) as (v & J & U & Up).
  exists v. split; [|auto]. intros v'. split; [intros J'; exact (jtext_fun _ _ _ J' J)|intros ->; exact J].
Qed.
(** So whoever reads it finds at each path of names and positions the text, number or truth value the document has there,
    and nothing at any other. *)
Theorem C108_read : forall X E version ecsversion fr ctx d txt v, (forall s, clean s (txt s)) ->
  encode_ecs X E version ecsversion fr ctx = Ok d -> jtext (marshal_ecs d) v ->
  forall p x, leaf x -> at_path p v = Some x <-> at_path p (doc_value txt d) = Some x.
Proof.
  intros X E version ecsversion fr ctx d txt v Hc H J p x L.
  destruct (doc_good txt Hc d (wf_encoded X E version ecsversion fr ctx d H)) as (v0 & J0 & U & Up).
  rewrite (jtext_fun _ _ _ J J0). exact (path_leaf p v0 _ x U Up L).
Qed.
(** It has no control character, so no line break: a document is a line. *)
Theorem C108_one_line : forall X E version ecsversion fr ctx d, encode_ecs X E version ecsversion fr ctx = Ok d ->
  forall c, In c (list_ascii_of_string (marshal_ecs d)) -> 32 <= nat_of_ascii c.
Proof.
  intros X E version ecsversion fr ctx d H c Hc.
  destruct (doc_good JsonFacts6.cleaned JsonFacts6.cleaned_ok d (wf_encoded X E version ecsversion fr ctx d H)) as (v & J & _).
  pose proof (doc_bytes d _ v eq_refl J c Hc) as B. unfold byte in B. lia.
Qed.
(** It does not depend on the order in which the maps of the document happen to be walked. *)
Theorem C108_order : forall X E version ecsversion fr ctx d d', encode_ecs X E version ecsversion fr ctx = Ok d ->
  reordered_doc d d' -> marshal_ecs d' = marshal_ecs d.
Proof.
  intros X E version ecsversion fr ctx d d' H R. symmetry. exact (doc_reordered d d' (wf_encoded X E version ecsversion fr ctx d H) R).
Qed.

(** What a line of the file says of its event. *)
Definition ecs_line (txt : string -> string) (doc : ecsdoc) (l : string) : Prop :=
  exists v, (forall v', jtext l v' <-> v' = v) /\ unique v /\ upto v (doc_value txt doc).
Section S.
Variables (P : payloads) (clk : nat -> Z) (ipstr : Z -> string) (jsonsvcs : list service -> string) (hash : flatrec -> Z).
Variables (X : sfgo_fns) (M : gomap fieldmap) (pmatch : string -> string -> bool) (ord : srule -> list nat -> list (string * search)) (n : nat).
Variables (ah : ahandler sfrec) (buffer xstart : Z) (cap : nat).
Variables (E : ecs_fns) (version ecsversion : string).
Hypotheses (Bits : forall o, (0 <= op_bit E o)%Z) (Names : type_names X).
(** From files to a file, with the ECS encoder: one line for each event the policies in force select, which is the document describing the
    event, the entities in force and the rules that fired. *)
Theorem C108_files_to_file :
  forall typ, map_str X M "sf.type" = Ok typ ->
  forall h conf d m rd fconf tr s x,
  policies_in conf d -> language_is conf Falco -> monitor_is conf LocalType -> mode_is conf m ->
  benign ah -> faithful h d -> (forall h', In h' (shown tr) -> faithful h' d) ->
  InitModel.init (sf_ops X M) pmatch ord n h conf = Ok (Some rd) -> (forall k, (clk k <= clk (S k))%Z) ->
  forall types pc root cfg flag stat open path c p fs rss,
  SpecDriver.names_output types pc root cfg c -> PluginModel.ch_type c = "sysflowchan" -> (forall k, flag k = true) ->
  SpecDriver.names_input cfg path p -> SpecDriver.inputs stat p fs -> Forall2 (SpecDriver.file_records open) fs rss ->
  SpecReader.Sane false (concat rss) ->
  runs P clk ipstr jsonsvcs hash X M pmatch ord n ah buffer xstart cap rd fconf (snd (fst (DriverModel.file_run types pc root cfg flag stat open path))) tr s -> exported s x ->
  forall txt w wn old, (forall s, clean s (txt s)) -> (forall k, w k = WOk) -> (forall k, wn k = WOk) ->
  exists ds out hs eras oss recs lns, Joined (concat rss) ds /\ Passed ipstr jsonsvcs hash fconf (events P ds) out /\
    subseq hs (shown tr) /\ map (fun fr => (fr, ctx_new)) out = concat (map snd eras) /\
    Forall2 (fun h' era => exists texts, texts_of h' d texts /\ Forall2 text_reads texts (fst era)) (h :: hs) eras /\
    Forall2 (fun era os => Forall2 (disposed X M typ (fst era) m) (snd era) os) eras oss /\
    Permutation recs (concat (map (@concat sfrec) oss)) /\
    Forall2 (fun r l => exists xe doc, In xe (events P ds) /\ fst r = flatten ipstr jsonsvcs (fst xe) (snd xe) /\
                                       describes X E version ecsversion (fst xe) (snd xe) (snd r) doc /\ ecs_line txt doc l) recs lns /\
    made_of_lines (file_after (file_init true old) (process_all (encode_all (enc_ecs X E version ecsversion)) (file_export w wn) 0 (x_batches x))) lns.
Proof.
  intros typ Ht h conf d m rd fconf tr s x Hd Hl Hmon Hm Hb Hf Hfs Hi Mono types pc root cfg flag stat open path c p fs rss Oc Ot Fl Np Gf Fr Sn H Ex txt w wn old Hc Hw Hn.
  rewrite (DriverFacts.all_records _ types pc root cfg flag stat open path c p fs rss Oc Ot Fl Np Gf Fr) in H. cbn [fst snd] in H.
  assert (A : source_of (concat rss) (map DriverModel.ASend (concat rss) ++ [DriverModel.AClose; DriverModel.AWait])) by (right; reflexivity).
  destruct (C91_monitored P clk ipstr jsonsvcs hash X M pmatch ord n ah buffer xstart cap typ Ht h conf d m rd fconf (concat rss) _ tr s x Hd Hl Hmon Hm Hb Hf Hfs Hi Mono A Sn H Ex)
    as (ds & out & hs & eras & oss & J & Pa & S1 & T1 & F1 & F2 & Pe).
  assert (Xr : exists es, x = x_run buffer xstart es).
  { destruct Ex as [Ex Ho]. destruct (app_done _ _ _ _ _ _ _ _ _ _ _ _ _ _ cap fconf _ (concat rss) A Sn tr s x Mono H Ex Ho) as (_ & _ & _ & _ & _ & _ & es & _ & _ & _ & _ & _ & _ & Q & _). eauto. }
  set (recs := concat (x_batches x)) in *.
  assert (K : forall r, In r recs -> exists xe, In xe (events P ds) /\ fst r = flatten ipstr jsonsvcs (fst xe) (snd xe)).
  { intros r Hr. exact (eras_in X M ipstr jsonsvcs hash fconf (events P ds) out typ m eras oss r Pa T1 F2 (Permutation_in _ Pe Hr)). }
  assert (Q : exists lns, Forall2 (fun r l => exists xe doc, In xe (events P ds) /\ fst r = flatten ipstr jsonsvcs (fst xe) (snd xe) /\
                                       describes X E version ecsversion (fst xe) (snd xe) (snd r) doc /\ ecs_line txt doc l) recs lns /\
                encode_all (enc_ecs X E version ecsversion) recs = Some (map (fun l => DObj (Some l) "" true) lns)).
  { clear - K Hc Bits Names. induction recs as [|[fr cx] recs IH]; [exists []; split; [constructor|reflexivity]|].
    destruct IH as (lns & F & Ee); [intros r Hr; apply K; right; exact Hr|].
    destruct (K (fr, cx) (or_introl eq_refl)) as (xe & Hxe & Er). cbn [fst] in Er.
    destruct (document X E ipstr jsonsvcs Bits Names version ecsversion (fst xe) (snd xe) cx) as (doc & Ed & D & _). rewrite <- Er in Ed.
    exists (marshal_ecs doc :: lns). split.
    - constructor; [|exact F]. exists xe, doc. split; [exact Hxe|]. split; [exact Er|]. split; [exact D|]. exact (C108_document X E version ecsversion fr cx doc txt Hc Ed).
    - cbn [encode_all map]. unfold enc_ecs at 1. cbn [fst snd]. rewrite Ed, Ee. reflexivity. }
  destruct Q as (lns & Fln & Ee).
  exists ds, out, hs, eras, oss, recs, lns. repeat (split; [assumption|]).
  unfold made_of_lines. rewrite (ExportFacts.file_after_ok _ w wn Hw Hn (x_batches x) 0 (map (fun l => DObj (Some l) "" true) lns)); [| |exact Ee].
  - unfold file_init. cbn [append]. unfold lines. rewrite map_map. reflexivity.
  - destruct Xr as (es & ->). destruct (ExportFacts.run_good (R := sfrec) buffer xstart es) as [_ G].
    eapply Forall_impl; [|exact G]. intros b [L _] ->. cbn in L. lia.
Qed.
End S.
Print Assumptions C108_document.
Print Assumptions C108_read.
Print Assumptions C108_one_line.
Print Assumptions C108_order.
Print Assumptions C108_files_to_file.
(** Two documents: of a file event with a container, whose paths and name are read back; and a text. *)
Example C108_case : exists d, encode_ecs X0 E0 "v" "e" fr1 ctx_new = Ok d /\
  at_path [KName "container"; KName "name"] (doc_value (fun s => s) d) = Some (JStr "web") /\
  at_path [KName "agent"; KName "version"] (doc_value (fun s => s) d) = Some (JStr "v") /\
  at_path [KName "network"] (doc_value (fun s => s) d) = None.
Proof. eexists. split; [vm_compute; reflexivity|]. repeat split; reflexivity. Qed.
Example C108_text_case : marshal_ecs (mkEcs "" "t" "" "" None [("ip", EStr "<"); ("id", EInt 7)] None None None [] None None None None None None None ["a"]) =
  "{""@timestamp"":""t"",""agent"":{""type"":""SysFlow""},""ecs"":{},""event"":null,""host"":{""id"":7,""ip"":""\u003c""},""tags"":[""a""]}".
Proof. reflexivity. Qed.
Definition flipped (d : ecsdoc) : ecsdoc :=
  mkEcs (e_id d) (e_ts d) (e_agent_version d) (e_ecs_version d) (e_event d) (rev (e_host d)) (e_container d) (e_orch d) (e_pod d) (e_service d) (e_file d)
    (e_fileaction d) (e_network d) (e_source d) (e_destination d) (e_process d) (e_user d) (e_tags d).
Example C108_order_case : exists d, encode_ecs X0 E0 "v" "e" fr1 ctx_new = Ok d /\ reordered_doc d (flipped d) /\ map fst (e_host d) <> map fst (e_host (flipped d)).
Proof.
  eexists. split; [vm_compute; reflexivity|]. match goal with |- reordered_doc ?d _ /\ _ => assert (Q : map fst (e_host d) = ["id"; "ip"]) by reflexivity; revert Q; generalize d end.
  intros d Q. split.
  - assert (R : forall o, reordered_o o o) by (intros [m|]; [constructor|exact I]).
    constructor; try reflexivity; unfold flipped; cbn [e_id e_ts e_event e_host e_container e_orch e_pod e_service e_file e_fileaction e_network e_source e_destination e_process e_user].
    + apply (ro_map (e_host d) (rev (e_host d)) (rev (e_host d))); [apply Permutation_rev|]. induction (rev (e_host d)); constructor; [split; [reflexivity|constructor]|assumption].
    + induction (e_service d); constructor; [constructor|assumption].
    + repeat (constructor; [apply R|]). constructor.
  - unfold flipped. cbn [e_host]. rewrite map_rev, Q. discriminate.
Qed.
