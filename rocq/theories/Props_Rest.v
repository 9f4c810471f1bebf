(** * Property C98: the running pipeline of a live stream, at every moment and at rest. *)
From Coq Require Import Lia Permutation.
From Verif Require ReaderModel SpecReader DriverModel SpecDriver ExportFacts.
From Verif Require Import GoBase GoFacts Predicates FlatRecord FieldTables Samples FalcoModel SpecFalco SpecFlat SigmaModel SpecSigma LexerModel SpecLexer
  EngineModel EngineFlat SpecEngine SpecEngineFlat PoolModel SpecPool PoolFacts3 PoolFacts4 MonitorModel SpecMonitor InitModel SpecInit InitFacts LiveFacts
  FlattenModel SpecFlatten ExportModel SpecExport AppModel SpecApp AppFacts ChainModel SpecChain ChainFacts SpecRest RestFacts ChainRest
  Props_Init Props_App Props_Chain Props_SigmaLive.
Local Open Scope nat_scope.

Section S.
Variables (P : payloads) (clk : nat -> Z) (ipstr : Z -> string) (jsonsvcs : list service -> string) (hash : flatrec -> Z).
Variables (X : sfgo_fns) (M : gomap fieldmap) (pmatch : string -> string -> bool) (ord : srule -> list nat -> list (string * search)) (n : nat).
Variables (ah : ahandler sfrec) (buffer xstart : Z) (cap : nat).
Notation runs rd := (runs P clk ipstr jsonsvcs hash X M pmatch ord n ah buffer xstart cap rd).
Notation stage rd := (app_stage P clk ipstr jsonsvcs hash X M pmatch ord n ah rd buffer).
Notation enough rd := (0 < cap /\ 0 < Z.to_nat (c_concurrency (rd_conf rd))).

Lemma moment_gen {E} (good : host -> Prop) (gov : host -> E -> Prop) (disp : E -> sfrec -> list sfrec -> Prop) h conf d m rd fconf rs acts tr s x :
  (forall h p, good h -> create_interpreter (sf_ops X M) pmatch ord n h (fst (create_config conf)) = Ok (Some p) ->
    exists e, gov h e /\ forall r, disp e r (outs (snd (work (sf_applicable X M) sf_add ah m (fst p) (snd p) r)))) ->
  policies_in conf d -> monitor_is conf LocalType -> mode_is conf m -> good h -> (forall h', In h' (shown tr) -> good h') ->
  InitModel.init (sf_ops X M) pmatch ord n h conf = Ok (Some rd) ->
  (forall k, (clk k <= clk (S k))%Z) -> source_of rs acts -> SpecReader.Sane false rs ->
  runs rd fconf acts tr s -> c_st s 3 = DExp x ->
  exists rs1 rs2 ds out1 out2 hs eras hand oss rest, rs = rs1 ++ rs2 /\ Joined rs1 ds /\
    Passed ipstr jsonsvcs hash fconf (events P ds) (out1 ++ out2) /\
    subseq hs (shown tr) /\ map (fun fr => (fr, ctx_new)) out1 = concat (map snd eras) ++ hand /\ length hand <= 1 /\
    Forall2 (fun h' era => gov h' (fst era)) (h :: hs) eras /\
    Forall2 (fun era os => Forall2 (disp (fst era)) (snd era) os) eras oss /\
    Permutation (concat (map (@concat sfrec) oss)) ((concat (x_batches x) ++ held x) ++ rest) /\
    (enough rd -> still (stage rd) cap s -> rs2 = [] /\ out2 = [] /\ hand = [] /\ rest = []).
Proof.
  intros Hg Hd Hmon Hm Hf Hfs Hi Mono A Sn H Ex.
  destruct (app_moment P clk ipstr jsonsvcs hash X M pmatch ord n ah rd buffer xstart cap fconf acts rs A Sn tr s Mono H)
    as (rs1 & rs2 & ds & out1 & out2 & chs & e & pol & ltr & x' & es & late & Er & J & Pa & Lr & Tk & Bt & Ex' & _ & Bs & St).
  rewrite Ex in Ex'. injection Ex' as <-.
  rewrite <- (notes_proj _ _ _ _ _ _ _ _ _ _ _ _ _ _ cap fconf acts tr s H) in Bs.
  assert (Em : c_mode (rd_conf rd) = m).
  { destruct (proj1 (init_iff _ _ _ _ h conf d rd Hd) Hi) as (p & _ & _ & [[_ ->]|(_ & _ & ->)]); exact (mode_eq _ _ Hm). }
  rewrite Em in *. rewrite <- Bs in Hfs.
  destruct (eras_moment (sf_ops X M) pmatch ord n (sf_applicable X M) sf_add ah m conf good gov disp Hg h d [2] rd chs e pol ltr Hd Hmon Hf Hfs nd2 Hi Lr)
    as (hs & eras & hand & S1 & T1 & L1 & F1 & I1 & C1).
  destruct (C1 2 (or_introl eq_refl)) as (oss & rest & F2 & Pe & I2). rewrite Bs in S1.
  exists rs1, rs2, ds, out1, out2, hs, eras, hand, oss, (late ++ rest).
  split; [exact Er|]. split; [exact J|]. split; [exact Pa|]. split; [exact S1|]. split; [exact (eq_trans (eq_sym Tk) T1)|]. split; [exact L1|]. split; [exact F1|]. split; [exact F2|].
  split; [rewrite Pe, Bt; now rewrite <- !app_assoc|].
  intros [Hc Hn] Hst. destruct (St Hc Hn Hst) as (-> & -> & -> & Id). rewrite (I1 Hn Id), (I2 Hn Id). auto.
Qed.

(** C98.  At every moment of a run, with a monitored policy directory: the exporter's batches, and
    what it holds for the next one, are part of what becomes of the events of a first part of the
    stream, each joined with the entities in force and without the repeats held back, by the policy
    texts of the era it falls into; apart from at most one record in the engine's main loop, the other
    events of that part are on their way ([out2], [rest]).  When the pipeline has come to rest nothing
    is: the whole stream has been read, and every record due has been exported or is held for the next
    batch. *)
Theorem C98_every_moment :
  forall typ, map_str X M "sf.type" = Ok typ ->
  forall h conf d m rd fconf rs acts tr s x,
  policies_in conf d -> language_is conf Falco -> monitor_is conf LocalType -> mode_is conf m ->
  benign ah -> faithful h d -> (forall h', In h' (shown tr) -> faithful h' d) ->
  InitModel.init (sf_ops X M) pmatch ord n h conf = Ok (Some rd) ->
  (forall k, (clk k <= clk (S k))%Z) -> source_of rs acts -> SpecReader.Sane false rs ->
  runs rd fconf acts tr s -> c_st s 3 = DExp x ->
  exists rs1 rs2 ds out1 out2 hs eras hand oss rest, rs = rs1 ++ rs2 /\ Joined rs1 ds /\
    Passed ipstr jsonsvcs hash fconf (events P ds) (out1 ++ out2) /\
    subseq hs (shown tr) /\ map (fun fr => (fr, ctx_new)) out1 = concat (map snd eras) ++ hand /\ length hand <= 1 /\
    Forall2 (fun h' era => exists texts, texts_of h' d texts /\ Forall2 text_reads texts (fst era)) (h :: hs) eras /\
    Forall2 (fun era os => Forall2 (disposed X M typ (fst era) m) (snd era) os) eras oss /\
    Permutation (concat (map (@concat sfrec) oss)) ((concat (x_batches x) ++ held x) ++ rest) /\
    (enough rd -> still (stage rd) cap s -> rs2 = [] /\ out2 = [] /\ hand = [] /\ rest = []).
Proof.
  intros typ Ht h conf d m rd fconf rs acts tr s x Hd Hl Hmon Hm Hb Hf Hfs.
  apply (moment_gen (fun h' => faithful h' d) (fun h' dss => exists texts, texts_of h' d texts /\ Forall2 text_reads texts dss) (fun dss => disposed X M typ dss m)) with (d := d) (m := m); try assumption.
  intros h' p Hh Hp. destruct (interpreter_texts X M typ Ht _ _ _ _ _ _ _ m _ Hd Hl Hb Hh Hp) as (texts & dss & T & Fr & D).
  exists dss. split; [exists texts; auto|exact D].
Qed.
(** The same for Sigma rules. *)
Theorem C98_every_moment_sigma :
  walks ord -> forall h conf d m rd fconf rs acts tr s x,
  policies_in conf d -> language_is conf Sigma -> monitor_is conf LocalType -> mode_is conf m ->
  h_perf h = false -> (forall h', In h' (shown tr) -> h_perf h' = false) ->
  InitModel.init (sf_ops X M) pmatch ord n h conf = Ok (Some rd) ->
  (forall k, (clk k <= clk (S k))%Z) -> source_of rs acts -> SpecReader.Sane false rs ->
  runs rd fconf acts tr s -> c_st s 3 = DExp x ->
  exists rs1 rs2 ds out1 out2 hs eras hand oss rest, rs = rs1 ++ rs2 /\ Joined rs1 ds /\
    Passed ipstr jsonsvcs hash fconf (events P ds) (out1 ++ out2) /\
    subseq hs (shown tr) /\ map (fun fr => (fr, ctx_new)) out1 = concat (map snd eras) ++ hand /\ length hand <= 1 /\
    Forall2 (fun h' era => sigma_of h' conf d (fst era)) (h :: hs) eras /\
    Forall2 (fun era os => Forall2 (s_disposed X M pmatch (fst (fst era)) (snd (fst era)) m) (snd era) os) eras oss /\
    Permutation (concat (map (@concat sfrec) oss)) ((concat (x_batches x) ++ held x) ++ rest) /\
    (enough rd -> still (stage rd) cap s -> rs2 = [] /\ out2 = [] /\ hand = [] /\ rest = []).
Proof.
  intros W h conf d m rd fconf rs acts tr s x Hd Hl Hmon Hm Hf Hfs.
  apply (moment_gen (fun h' => h_perf h' = false) (fun h' ms => sigma_of h' conf d ms) (fun ms => s_disposed X M pmatch (fst ms) (snd ms) m)) with (d := d) (m := m); try assumption.
  intros h' p Hh Hp. exact (interpreter_sigma _ _ _ _ _ W _ _ _ _ _ _ Hd Hl Hh Hp).
Qed.
(** Without a monitor: by the texts present at start-up; without policies: everything, in order. *)
Theorem C98_every_moment_static :
  forall typ, map_str X M "sf.type" = Ok typ ->
  forall h conf d m rd fconf rs acts tr s x,
  policies_in conf d -> language_is conf Falco -> monitor_is conf NoneType -> mode_is conf m ->
  benign ah -> faithful h d -> InitModel.init (sf_ops X M) pmatch ord n h conf = Ok (Some rd) ->
  (forall k, (clk k <= clk (S k))%Z) -> source_of rs acts -> SpecReader.Sane false rs ->
  runs rd fconf acts tr s -> c_st s 3 = DExp x ->
  exists rs1 rs2 ds out1 out2 texts dss os rest, rs = rs1 ++ rs2 /\ Joined rs1 ds /\
    Passed ipstr jsonsvcs hash fconf (events P ds) (out1 ++ out2) /\ texts_of h d texts /\ Forall2 text_reads texts dss /\
    Forall2 (fun fr o => disposed X M typ dss m (fr, ctx_new) o) out1 os /\
    Permutation (concat os) ((concat (x_batches x) ++ held x) ++ rest) /\
    (enough rd -> still (stage rd) cap s -> rs2 = [] /\ out2 = [] /\ rest = []).
Proof.
  intros typ Ht h conf d m rd fconf rs acts tr s x Hd Hl Hmon Hm Hb Hf Hi Mono A Sn H Ex.
  destruct (app_moment P clk ipstr jsonsvcs hash X M pmatch ord n ah rd buffer xstart cap fconf acts rs A Sn tr s Mono H)
    as (rs1 & rs2 & ds & out1 & out2 & chs & e & pol & ltr & x' & es & late & Er & J & Pa & Lr & Tk & Bt & Ex' & _ & _ & St).
  rewrite Ex in Ex'. injection Ex' as <-.
  assert (Em : c_mode (rd_conf rd) = m).
  { destruct (proj1 (init_iff _ _ _ _ h conf d rd Hd) Hi) as (p & _ & _ & [[_ ->]|(_ & _ & ->)]); exact (mode_eq _ _ Hm). }
  rewrite Em in *. unfold live_start in Lr. destruct (live_projects _ _ _ _ _ _ _ _ _ _ _ _ _ _ Lr) as (cs & _ & _ & Hr & _).
  destruct (static_moment (sf_ops X M) pmatch ord n (sf_applicable X M) sf_add ah m conf (fun h' => faithful h' d)
    (fun h' dss => exists texts, texts_of h' d texts /\ Forall2 text_reads texts dss) (fun dss => disposed X M typ dss m)) with (h := h) (d := d) (outCh := [2]) (rd := rd) (cs := cs) (s := e) (tr := ltr)
    as (dss & (texts & T & F) & Q); try assumption.
  { intros h' p Hh Hp. destruct (interpreter_texts X M typ Ht _ _ _ _ _ _ _ m _ Hd Hl Hb Hh Hp) as (texts & dss & T & Fr & D). exists dss. split; [exists texts; auto|exact D]. }
  { exact nd2. }
  destruct (Q 2 (or_introl eq_refl)) as (os & rest & F2 & Pe & I2).
  exists rs1, rs2, ds, out1, out2, texts, dss, os, (late ++ rest). repeat (split; [assumption|]). split.
  { assert (F3 : Forall2 (disposed X M typ dss m) (map (fun fr => (fr, ctx_new)) out1) os) by (rewrite <- Tk; exact F2).
    clear - F3. revert os F3. induction out1 as [|fr out IH]; intros os F3; cbn [map] in F3; inversion F3 as [|? o ? os' D F']; subst; constructor; auto. }
  split; [etransitivity; [exact Pe|]; rewrite app_assoc; apply Permutation_refl'; exact (f_equal (fun z => z ++ rest) Bt)|].
  intros [Hc Hn] Hst. destruct (St Hc Hn Hst) as (-> & -> & -> & Id). rewrite (I2 Hn Id). auto.
Qed.
Theorem C98_every_moment_bypass :
  forall h conf rd fconf rs acts tr s x,
  no_policies conf -> InitModel.init (sf_ops X M) pmatch ord n h conf = Ok (Some rd) ->
  (forall k, (clk k <= clk (S k))%Z) -> source_of rs acts -> SpecReader.Sane false rs ->
  runs rd fconf acts tr s -> c_st s 3 = DExp x ->
  exists rs1 rs2 ds out1 out2, rs = rs1 ++ rs2 /\ Joined rs1 ds /\ Passed ipstr jsonsvcs hash fconf (events P ds) (out1 ++ out2) /\
    concat (x_batches x) ++ held x = map (fun fr => (fr, ctx_new)) out1 /\
    (enough rd -> still (stage rd) cap s -> rs2 = [] /\ out2 = []).
Proof.
  intros h conf rd fconf rs acts tr s x Hn Hi Mono A Sn H Ex.
  destruct (app_moment P clk ipstr jsonsvcs hash X M pmatch ord n ah rd buffer xstart cap fconf acts rs A Sn tr s Mono H)
    as (rs1 & rs2 & ds & out1 & out2 & chs & e & pol & ltr & x' & es & late & Er & J & Pa & Lr & Tk & Bt & Ex' & _ & _ & St).
  rewrite Ex in Ex'. injection Ex' as <-.
  assert (Es : pool_start rd = init_bypass).
  { destruct (init_no_policies (sf_ops X M) pmatch ord n h conf Hn) as [H1 H2]. destruct (conf_parts conf) as (_ & _ & _ & Hm & _).
    destruct (c_mode (fst (create_config conf))); [rewrite (H1 Hm) in Hi; injection Hi as <-; reflexivity|]. rewrite (H2 Hm) in Hi. discriminate. }
  unfold live_start in Lr. destruct (live_projects _ _ _ _ _ _ _ _ _ _ _ _ _ _ Lr) as (cs & _ & _ & Hr & _). rewrite Es in Hr.
  destruct (bypass_moment _ _ _ nd2 _ _ _ Hr 2 (or_introl eq_refl)) as (rest & Q1 & _ & Q2).
  assert (Sp : exists o1 o2, out1 = o1 ++ o2 /\ map (fun fr => (fr, ctx_new)) o1 = concat (x_batches x) ++ held x /\ length o2 = length (late ++ rest)).
  { assert (Eq : map (fun fr => (fr, ctx_new)) out1 = (concat (x_batches x) ++ held x) ++ late ++ rest) by (rewrite app_assoc, <- Bt, <- Q1; symmetry; exact Tk).
    apply map_eq_app in Eq as (o1 & o2 & -> & Eo & Eo2). exists o1, o2. split; [reflexivity|]. split; [exact Eo|]. rewrite <- Eo2. now rewrite map_length. }
  destruct Sp as (o1 & o2 & -> & Eo & L).
  exists rs1, rs2, ds, o1, (o2 ++ out2). split; [exact Er|]. split; [exact J|]. split; [rewrite app_assoc; exact Pa|]. split; [symmetry; exact Eo|].
  intros [Hc Hn'] Hst. destruct (St Hc Hn' Hst) as (-> & -> & -> & Id). rewrite (Q2 Id) in L. destruct o2; [auto|discriminate].
Qed.
(** It does come to rest, from wherever it is, by steps of its goroutines alone, unless something
    arrives; and such steps cannot go on for ever. *)
Theorem C98_comes_to_rest :
  forall rd fconf rs acts tr s, enough rd -> source_of rs acts -> SpecReader.Sane false rs -> runs rd fconf acts tr s ->
  (exists tr' s', runs rd fconf acts (tr ++ tr') s' /\ still (stage rd) cap s' /\ Forall working tr') /\
  Acc (fun s2 s1 => exists ia, working ia /\ cstep (stage rd) cap s1 ia s2) s.
Proof.
  intros rd fconf rs acts tr s [Hc Hn] A Sn H. split.
  - exact (comes_to_rest P clk ipstr jsonsvcs hash X M pmatch ord n ah rd buffer xstart cap fconf acts rs A Sn tr s Hc Hn H).
  - apply app_terminates; assumption.
Qed.
(** What is held does not stay there: a tick of the exporter more than a second after its last flush
    can happen while the exporter runs, and hands all of it to the encoder. *)
Theorem C98_flushed :
  forall rd fconf rs acts tr s x now, source_of rs acts -> SpecReader.Sane false rs -> (forall k, (clk k <= clk (S k))%Z) ->
  runs rd fconf acts tr s -> c_st s 3 = DExp x -> x_open x = true -> (now - x_last x > 1000000000)%Z ->
  exists s' x', runs rd fconf acts (tr ++ [(3, TStep None)]) s' /\ c_st s' 3 = DExp x' /\
    held x' = [] /\ concat (x_batches x') = concat (x_batches x) ++ held x /\
    (forall i, i <> 3 -> c_st s' i = c_st s i) /\ c_ch s' = c_ch s /\ c_closed s' = c_closed s.
Proof.
  intros rd fconf rs acts tr s x now A Sn Mono H Ex Ho Hn.
  pose proof (C91_never_crashes P clk ipstr jsonsvcs hash X M pmatch ord n ah buffer xstart cap rd fconf rs acts tr s A Sn H) as Cr.
  destruct (app_moment P clk ipstr jsonsvcs hash X M pmatch ord n ah rd buffer xstart cap fconf acts rs A Sn tr s Mono H)
    as (rs1 & rs2 & ds & out1 & out2 & chs & e & pol & ltr & x' & es & late & _ & _ & _ & _ & _ & _ & Ex' & Exx & _).
  rewrite Ex in Ex'. injection Ex' as <-.
  pose proof (ExportFacts.run_good (R := sfrec) buffer xstart es) as [G _]. rewrite <- Exx in G. specialize (G Ho).
  eexists _, (x_step buffer x (XTick now now)). split.
  { econstructor; [exact H|]. apply cs_step; [exact Cr|]. rewrite Ex. apply as_exp. apply xa_tick. exact Ho. }
  cbn [c_st c_ch c_closed]. unfold set. rewrite Nat.eqb_refl. split; [reflexivity|].
  assert (T : Z.ltb maxIdle (now - x_last x) = true) by (apply Z.ltb_lt; unfold maxIdle; lia).
  assert (K : held (x_step buffer x (XTick now now)) = [] /\ concat (x_batches (x_step buffer x (XTick now now))) = concat (x_batches x) ++ held x).
  { unfold x_step. rewrite Ho, T. cbn [andb]. destruct (Z.ltb_spec 0 (x_counter x)) as [Hp|Hp].
    - unfold x_flush, held. cbn [x_open x_recs x_batches]. rewrite Ho, concat_app. cbn. now rewrite app_nil_r.
    - assert (En : x_recs x = []) by (destruct (x_recs x); [reflexivity|cbn [length] in G; lia]). unfold held. rewrite Ho, En. now rewrite app_nil_r. }
  destruct K as [K1 K2]. split; [exact K1|]. split; [exact K2|]. split; [|auto].
  intros i Hi. destruct (Nat.eqb_spec 3 i) as [<-|_]; [now destruct Hi|reflexivity].
Qed.
End S.
Print Assumptions C98_every_moment.
Print Assumptions C98_every_moment_sigma.
Print Assumptions C98_every_moment_static.
Print Assumptions C98_every_moment_bypass.
Print Assumptions C98_comes_to_rest.
Print Assumptions C98_flushed.

(** A live stream (the records of C88's example, the channel stays open), a monitored policy directory
    whose files are replaced before the first record: the pipeline comes to rest. *)
Notation ex_live_src := (map DriverModel.ASend ex_recs).
Example C98_hypotheses_case : exists rd tr s x,
  ex_init ["a.yaml"] "local" "alert" "1" = Ok (Some rd) /\ source_of ex_recs ex_live_src /\ SpecReader.Sane false ex_recs /\
  0 < Z.to_nat (c_concurrency (rd_conf rd)) /\ ex_runs rd ex_live_src tr s /\
  still (app_stage ex_pay (fun n => Z.of_nat n) (fun _ => "") (fun _ => "") (fun _ => 0%Z) X0 mappers (fun _ _ => false) (fun _ _ => []) 9 ex_ah0 rd 2) 1 s /\
  c_st s 3 = DExp x /\ shown tr = [ex_host2] /\ faithful ex_host2 "/pol".
Proof.
  pose proof ex_first_step as F. destruct (ex_init ["a.yaml"] "local" "alert" "1") as [[rd|]| | |] eqn:E; try destruct F.
  rename H into Hc, H0 into H1.
  destruct (eng_step X0 mappers (fun _ _ => false) (fun _ _ => []) 9 ex_ah0 rd (live_start rd) ex_files_ch) as [[e' ls]|] eqn:Es; [|destruct H1].
  assert (Sn : SpecReader.Sane false ex_recs) by exact (proj1 C88_hypotheses_case).
  assert (A : source_of ex_recs ex_live_src) by (left; reflexivity).
  assert (H : ex_runs rd ex_live_src [(2, TStep (Some ex_host2))]
    (mkC (set (app_start rd 0 [] ex_live_src) 2 (DEng e')) (fun _ => []) (fun _ => false) false)).
  { apply (cr_snoc _ _ _ [] _ _ _ (cr_nil _ _ _)). apply cs_step; [reflexivity|]. rewrite <- H1. apply (as_eng _ _ _ _ _ _ _ _ _ _ _ _ _ _ _ _ _ Es). intros r Er. discriminate. }
  assert (Hn : 0 < Z.to_nat (c_concurrency (rd_conf rd))) by (rewrite Hc; auto).
  destruct (C98_comes_to_rest _ _ _ _ _ _ _ _ _ _ _ _ _ _ rd [] ex_recs _ _ _ (conj (le_n 1) Hn) A Sn H) as [(tr' & s' & H' & D & W) _].
  assert (Mono : forall k, (Z.of_nat k <= Z.of_nat (S k))%Z) by (intros k; lia).
  destruct (app_moment _ (fun n => Z.of_nat n) _ _ _ _ _ _ _ _ _ _ _ _ _ _ _ _ A Sn _ _ Mono H') as (_ & _ & _ & _ & _ & _ & _ & _ & _ & x & _ & _ & _ & _ & _ & _ & _ & _ & Ex & _).
  exists rd, ([(2, TStep (Some ex_host2))] ++ tr'), s', x. repeat (split; [first [reflexivity|assumption]|]). split; [|exact (proj1 C87_hypotheses_case)].
  cbn [List.app]. unfold shown. cbn [flat_map snd]. cbn [List.app]. f_equal.
  clear - W. induction W as [|[i a] l [_ Wk] _ IH]; [reflexivity|]. cbn [flat_map snd] in *. rewrite IH, app_nil_r. destruct a as [| | |[h'|]|]; try reflexivity. destruct (Wk h' eq_refl).
Qed.
