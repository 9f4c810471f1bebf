(** * Property C91: the shipped pipeline with all its goroutines and the policy monitor. *)
From Coq Require Import Lia Permutation.
From Verif Require ReaderModel SpecReader SpecJson JsonFlat DriverModel SpecDriver DriverFacts PluginModel ExportFacts.
From Verif Require Import GoBase GoFacts Predicates FlatRecord FieldTables Samples FalcoModel SpecFalco SpecFlat SigmaModel LexerModel SpecLexer LexFast
  EngineModel EngineFlat SpecEngine SpecEngineFlat PoolModel SpecPool PoolFacts3 PoolFacts4 MonitorModel SpecMonitor InitModel SpecInit InitFacts LiveFacts
  FlattenModel SpecFlatten ExportModel SpecExport AppModel SpecApp AppFacts ChainModel SpecChain ChainFacts Props_Grammar Props_Init Props_App.
Local Open Scope nat_scope.

Section S.
(** What the pipeline is given: the attributes of the records, library functions, the clock, the
    policy front end's parameters, the exporter's batch size and the capacity of the channels. *)
Variables (P : payloads) (clk : nat -> Z) (ipstr : Z -> string) (jsonsvcs : list service -> string) (hash : flatrec -> Z).
Variables (X : sfgo_fns) (M : gomap fieldmap) (pmatch : string -> string -> bool) (ord : srule -> list nat -> list (string * search)) (n : nat).
Variables (ah : ahandler sfrec) (buffer xstart : Z) (cap : nat).
Lemma nd2 : NoDup [2]. Proof. constructor; [intros []|constructor]. Qed.
Definition runs rd := app_run_to P clk ipstr jsonsvcs hash X M pmatch ord n ah rd buffer xstart cap.

(** C91.  The process never panics: no send on, and no second close of, a closed channel, by any
    goroutine, under every schedule, whatever the policy files become while it runs. *)
Theorem C91_never_crashes :
  forall rd fconf rs acts tr s, source_of rs acts -> SpecReader.Sane false rs ->
  runs rd fconf acts tr s -> c_crash s = false.
Proof. intros rd fconf rs acts tr s A Sn H. exact (app_safe _ _ _ _ _ _ _ _ _ _ _ _ _ _ cap fconf acts rs A Sn tr s H). Qed.

(** When the exporter is done, with a monitored policy directory: the batches exported are made of
    exactly what becomes of the events of the stream, each joined with the entities in force, without
    the repeats held back; the events fall into consecutive eras, the first governed by the policy
    texts present at start-up, each later one by those some batch of changes showed. *)
Theorem C91_monitored :
  forall typ, map_str X M "sf.type" = Ok typ ->
  forall h conf d m rd fconf rs acts tr s x,
  policies_in conf d -> language_is conf Falco -> monitor_is conf LocalType -> mode_is conf m ->
  benign ah -> faithful h d -> (forall h', In h' (shown tr) -> faithful h' d) ->
  InitModel.init (sf_ops X M) pmatch ord n h conf = Ok (Some rd) ->
  (forall k, (clk k <= clk (S k))%Z) -> source_of rs acts -> SpecReader.Sane false rs ->
  runs rd fconf acts tr s -> exported s x ->
  exists ds out hs eras oss, Joined rs ds /\ Passed ipstr jsonsvcs hash fconf (events P ds) out /\
    subseq hs (shown tr) /\ map (fun fr => (fr, ctx_new)) out = concat (map snd eras) /\
    Forall2 (fun h' era => exists texts, texts_of h' d texts /\ Forall2 text_reads texts (fst era)) (h :: hs) eras /\
    Forall2 (fun era os => Forall2 (disposed X M typ (fst era) m) (snd era) os) eras oss /\
    Permutation (concat (x_batches x)) (concat (map (@concat sfrec) oss)).
Proof.
  intros typ Ht h conf d m rd fconf rs acts tr s x Hd Hl Hmon Hm Hb Hf Hfs Hi Mono A Sn H [Ex Ho].
  destruct (app_done _ _ _ _ _ _ _ _ _ _ _ _ _ _ cap fconf acts rs A Sn tr s x Mono H Ex Ho) as (ds & out & chs & e & pol & ltr & es & J & Pa & Lr & Fi & Tk & Bt & _ & Bs & _).
  rewrite <- (notes_proj _ _ _ _ _ _ _ _ _ _ _ _ _ _ cap fconf acts tr s H) in Bs.
  assert (Em : c_mode (rd_conf rd) = m).
  { destruct (proj1 (init_iff _ _ _ _ h conf d rd Hd) Hi) as (p & _ & _ & [[_ ->]|(_ & _ & ->)]); exact (mode_eq _ _ Hm). }
  rewrite Em in Lr. rewrite <- Bs in Hfs.
  destruct (live_eras X M typ Ht pmatch ord n h conf d ah m [2] rd chs e pol ltr Hd Hl Hmon Hm Hb Hf Hfs nd2 Hi Lr Fi) as (hs & eras & S1 & T1 & F1 & C1).
  destruct (C1 2 (or_introl eq_refl)) as (oss & F2 & Pe). rewrite Bs in S1.
  exists ds, out, hs, eras, oss. rewrite Bt. rewrite Tk in T1. auto 10.
Qed.
(** With policies and no monitor: by the texts present at start-up. *)
Theorem C91_static :
  forall typ, map_str X M "sf.type" = Ok typ ->
  forall h conf d m rd fconf rs acts tr s x,
  policies_in conf d -> language_is conf Falco -> monitor_is conf NoneType -> mode_is conf m ->
  benign ah -> faithful h d -> InitModel.init (sf_ops X M) pmatch ord n h conf = Ok (Some rd) ->
  (forall k, (clk k <= clk (S k))%Z) -> source_of rs acts -> SpecReader.Sane false rs ->
  runs rd fconf acts tr s -> exported s x ->
  exists ds out texts dss os, Joined rs ds /\ Passed ipstr jsonsvcs hash fconf (events P ds) out /\
    texts_of h d texts /\ Forall2 text_reads texts dss /\
    Forall2 (fun fr o => disposed X M typ dss m (fr, ctx_new) o) out os /\
    Permutation (concat (x_batches x)) (concat os).
Proof.
  intros typ Ht h conf d m rd fconf rs acts tr s x Hd Hl Hmon Hm Hb Hf Hi Mono A Sn H [Ex Ho].
  destruct (app_done _ _ _ _ _ _ _ _ _ _ _ _ _ _ cap fconf acts rs A Sn tr s x Mono H Ex Ho) as (ds & out & chs & e & pol & ltr & es & J & Pa & Lr & Fi & Tk & Bt & _).
  assert (Em : c_mode (rd_conf rd) = m).
  { destruct (proj1 (init_iff _ _ _ _ h conf d rd Hd) Hi) as (p & _ & _ & [[_ ->]|(_ & _ & ->)]); exact (mode_eq _ _ Hm). }
  rewrite Em in Lr. unfold live_start in Lr.
  destruct (live_projects _ _ _ _ _ _ _ _ _ _ _ _ _ _ Lr) as (cs & _ & _ & Hr & _).
  destruct (plugin_end_to_end X M typ Ht pmatch ord n h conf d ah m [2] rd cs e ltr Hd Hl Hmon Hm Hb Hf nd2 Hi Hr Fi) as (texts & dss & T & F & Q).
  destruct (Q 2 (or_introl eq_refl)) as (os & F2 & Pe). exists ds, out, texts, dss, os. rewrite Bt. repeat (split; [assumption|]). split; [|exact Pe].
  assert (F3 : Forall2 (disposed X M typ dss m) (map (fun fr => (fr, ctx_new)) out) os) by (rewrite <- Tk; exact F2).
  clear - F3. rename F3 into F2. revert os F2. induction out as [|fr out IH]; intros os F2; cbn [map] in F2; inversion F2 as [|? o ? os' D F']; subst; constructor; auto.
Qed.
(** Without policies, in enrich mode: everything, without a context, in order. *)
Theorem C91_bypass :
  forall h conf rd fconf rs acts tr s x,
  no_policies conf -> InitModel.init (sf_ops X M) pmatch ord n h conf = Ok (Some rd) ->
  (forall k, (clk k <= clk (S k))%Z) -> source_of rs acts -> SpecReader.Sane false rs ->
  runs rd fconf acts tr s -> exported s x ->
  exists ds out, Joined rs ds /\ Passed ipstr jsonsvcs hash fconf (events P ds) out /\
    concat (x_batches x) = map (fun fr => (fr, ctx_new)) out.
Proof.
  intros h conf rd fconf rs acts tr s x Hn Hi Mono A Sn H [Ex Ho].
  destruct (app_done _ _ _ _ _ _ _ _ _ _ _ _ _ _ cap fconf acts rs A Sn tr s x Mono H Ex Ho) as (ds & out & chs & e & pol & ltr & es & J & Pa & Lr & Fi & Tk & Bt & _).
  assert (Es : pool_start rd = init_bypass).
  { destruct (init_no_policies (sf_ops X M) pmatch ord n h conf Hn) as [H1 H2]. destruct (conf_parts conf) as (_ & _ & _ & Hm & _).
    destruct (c_mode (fst (create_config conf))); [rewrite (H1 Hm) in Hi; injection Hi as <-; reflexivity|]. rewrite (H2 Hm) in Hi. discriminate. }
  unfold live_start in Lr. destruct (live_projects _ _ _ _ _ _ _ _ _ _ _ _ _ _ Lr) as (cs & _ & _ & Hr & _). rewrite Es in Hr.
  destruct (pool_bypass _ _ _ nd2 _ _ _ Hr) as (Q & _). destruct (Q 2 (or_introl eq_refl)) as (rest & Q1 & _ & Q2).
  assert (Rt : In LReturn ltr).
  { apply PoolFacts.run_reach in Hr. apply (PoolFacts2.ax_ret _ _ (PoolFacts2.aux_reach _ _ _ _ _ _ PoolFacts2.aux_bypass Hr)). rewrite Fi. split; [reflexivity|discriminate]. }
  rewrite (Q2 Rt), app_nil_r in Q1. exists ds, out. rewrite Bt, <- Q1, Tk. auto.
Qed.
(** From files to a file: a directory of trace files, a monitored policy directory, the JSON encoder
    and the file target.  The file consists of one line for each of the records above, which is the
    JSON text of the record where it has one. *)
Theorem C91_files_to_file :
  forall typ, map_str X M "sf.type" = Ok typ ->
  forall h conf d m rd fconf tr s x,
  policies_in conf d -> language_is conf Falco -> monitor_is conf LocalType -> mode_is conf m ->
  benign ah -> faithful h d -> (forall h', In h' (shown tr) -> faithful h' d) ->
  InitModel.init (sf_ops X M) pmatch ord n h conf = Ok (Some rd) -> (forall k, (clk k <= clk (S k))%Z) ->
  forall types pc root cfg flag stat open path c p fs rss,
  SpecDriver.names_output types pc root cfg c -> PluginModel.ch_type c = "sysflowchan" -> (forall k, flag k = true) ->
  SpecDriver.names_input cfg path p -> SpecDriver.inputs stat p fs -> Forall2 (SpecDriver.file_records open) fs rss ->
  SpecReader.Sane false (concat rss) ->
  runs rd fconf (snd (fst (DriverModel.file_run types pc root cfg flag stat open path))) tr s -> exported s x ->
  forall txt two version vj w wn old, (forall s, SpecJson.clean s (txt s)) -> SpecJson.jtext version vj ->
  (forall k, w k = WOk) -> (forall k, wn k = WOk) ->
  exists ds out hs eras oss recs lns, Joined (concat rss) ds /\ Passed ipstr jsonsvcs hash fconf (events P ds) out /\
    subseq hs (shown tr) /\ map (fun fr => (fr, ctx_new)) out = concat (map snd eras) /\
    Forall2 (fun h' era => exists texts, texts_of h' d texts /\ Forall2 text_reads texts (fst era)) (h :: hs) eras /\
    Forall2 (fun era os => Forall2 (disposed X M typ (fst era) m) (snd era) os) eras oss /\
    Permutation recs (concat (map (@concat sfrec) oss)) /\ Forall2 (json_line X txt two vj) recs lns /\
    made_of_lines (file_after (file_init true old) (process_all (encode_all (enc_json X two version)) (file_export w wn) 0 (x_batches x))) lns.
Proof.
  intros typ Ht h conf d m rd fconf tr s x Hd Hl Hmon Hm Hb Hf Hfs Hi Mono types pc root cfg flag stat open path c p fs rss Oc Ot Fl Np Gf Fr Sn H Ex txt two version vj w wn old Hc Hv Hw Hn.
  rewrite (DriverFacts.all_records _ types pc root cfg flag stat open path c p fs rss Oc Ot Fl Np Gf Fr) in H. cbn [fst snd] in H.
  assert (A : source_of (concat rss) (map DriverModel.ASend (concat rss) ++ [DriverModel.AClose; DriverModel.AWait])) by (right; reflexivity).
  destruct (C91_monitored typ Ht h conf d m rd fconf (concat rss) _ tr s x Hd Hl Hmon Hm Hb Hf Hfs Hi Mono A Sn H Ex) as (ds & out & hs & eras & oss & J & Pa & S1 & T1 & F1 & F2 & Pe).
  assert (Xr : exists es, x = x_run buffer xstart es).
  { destruct Ex as [Ex Ho]. destruct (app_done _ _ _ _ _ _ _ _ _ _ _ _ _ _ cap fconf _ (concat rss) A Sn tr s x Mono H Ex Ho) as (_ & _ & _ & _ & _ & _ & es & _ & _ & _ & _ & _ & _ & Q & _). eauto. }
  set (recs := concat (x_batches x)) in *.
  destruct (encoded X two version recs) as (lns & Fln & _).
  { intros r Hr. apply (Permutation_in _ Pe), in_concat in Hr as (o & Ho & Hr). apply in_map_iff in Ho as (os & <- & Ho).
    assert (Q : exists e, In e eras /\ exists r0, In r0 (snd e) /\ fst r = fst r0).
    { clear - F2 Ho Hr. induction F2 as [|e os' eras oss D F2 IH]; [destruct Ho|]. destruct Ho as [->|Ho].
      - exists e. split; [now left|]. clear - D Hr. destruct e as [tx es]. cbn [fst snd] in D |- *. induction D as [|r0 o' l os Dd D IH]; [destruct Hr|]. cbn [concat] in Hr. apply in_app_or in Hr as [Hr|Hr].
        + exists r0. split; [now left|]. exact (disposed_in _ _ _ _ _ _ _ _ Dd Hr).
        + destruct (IH Hr) as (q & ? & ?). exists q. split; [now right|assumption].
      - destruct (IH Ho) as (q & ? & ?). exists q. split; [now right|assumption]. }
    destruct Q as (e & He & r0 & Hr0 & Er).
    assert (Hfr : In (fst r0) out).
    { assert (Hc' : In r0 (concat (map snd eras))) by (apply in_concat; exists (snd e); split; [apply in_map; exact He|exact Hr0]).
      rewrite <- T1 in Hc'. apply in_map_iff in Hc' as (fr & <- & Hf'). exact Hf'. }
    destruct (passed_in _ _ _ _ _ _ _ Pa Hfr) as (xe & _ & Exe).
    unfold json_of. rewrite Er, Exe. apply JsonFlat.flat_encodes. }
  exists ds, out, hs, eras, oss, recs, lns. repeat (split; [assumption|]). split.
  - clear - Hc Hv Fln. induction Fln as [|r l rs' ls' H Fl IH]; constructor; [exact (line_value _ _ _ _ _ _ _ Hc Hv H)|assumption].
  - apply file_lines; try assumption. destruct Xr as (es & ->). destruct (ExportFacts.run_good (R := sfrec) buffer xstart es) as [_ G].
    eapply Forall_impl; [|exact G]. intros b [L _] ->. cbn in L. lia.
Qed.
(** The pipeline cannot stop half-way: while it is not done some goroutine can take a step that is
    neither a tick nor a file event, and such steps cannot go on for ever, whatever happens in between
    (ticks and file events cannot undo them: see [C91_completes]). *)
Theorem C91_finishes :
  forall rd fconf rs tr s, 0 < cap -> 0 < Z.to_nat (c_concurrency (rd_conf rd)) -> SpecReader.Sane false rs ->
  runs rd fconf (complete rs) tr s ->
  (all_done s \/ exists ia s2, working ia /\ runs rd fconf (complete rs) (tr ++ [ia]) s2) /\
  Acc (fun s2 s1 => exists ia, working ia /\ cstep (app_stage P clk ipstr jsonsvcs hash X M pmatch ord n ah rd buffer) cap s1 ia s2) s.
Proof.
  intros rd fconf rs tr s Hc Hn Sn H. assert (A : source_of rs (complete rs)) by (right; reflexivity). split.
  - destruct (app_progress P clk ipstr jsonsvcs hash X M pmatch ord n ah rd buffer xstart cap fconf (complete rs) rs A Sn tr s Hc Hn eq_refl H) as [D|(ia & s2 & W & Hs)]; [now left|].
    right. exists ia, s2. split; [exact W|]. econstructor; [exact H|exact Hs].
  - apply app_terminates; assumption.
Qed.
(** From wherever it is, the pipeline comes to its end by such steps alone. *)
Theorem C91_completes :
  forall rd fconf rs tr s, 0 < cap -> 0 < Z.to_nat (c_concurrency (rd_conf rd)) -> SpecReader.Sane false rs ->
  runs rd fconf (complete rs) tr s ->
  exists tr' s', runs rd fconf (complete rs) (tr ++ tr') s' /\ all_done s' /\ Forall working tr'.
Proof.
  intros rd fconf rs tr s Hc Hn Sn H.
  exact (app_completes P clk ipstr jsonsvcs hash X M pmatch ord n ah rd buffer xstart cap fconf (complete rs) rs (or_intror eq_refl) Sn tr s Hc Hn eq_refl H).
Qed.
End S.
Print Assumptions C91_never_crashes.
Print Assumptions C91_monitored.
Print Assumptions C91_static.
Print Assumptions C91_bypass.
Print Assumptions C91_files_to_file.
Print Assumptions C91_finishes.
Print Assumptions C91_completes.

(** The pipeline of C88's example, with a monitored policy directory: the hypotheses are met by a run
    in which the policy files are replaced before the first record (the first step is a batch of file
    events), and which then goes on to the end. *)
Definition ex_runs rd := runs ex_pay (fun n => Z.of_nat n) (fun _ => "") (fun _ => "") (fun _ => 0%Z) X0 mappers (fun _ _ => false) (fun _ _ => []) 9 ex_ah0 2 0 1 rd [].
Definition ex_files_ch : lchoice sfrec := LFiles [mkEv op_write "a.yaml"] (mkView (Some ["a.yaml"]) (fun _ => Some "h2")) (Some ["a.yaml"]) ex_host2.
Lemma ex_first_step : match ex_init ["a.yaml"] "local" "alert" "1" with
  | Ok (Some rd) => Z.to_nat (c_concurrency (rd_conf rd)) = 1 /\
      match eng_step X0 mappers (fun _ _ => false) (fun _ _ => []) 9 ex_ah0 rd (live_start rd) ex_files_ch with
      | Some (_, ls) => eng_act ex_files_ch ls = TStep (Some ex_host2)
      | None => False
      end
  | _ => False
  end.
Proof. vm_compute. auto. Qed.
Example C91_hypotheses_case : exists rd tr s x,
  ex_init ["a.yaml"] "local" "alert" "1" = Ok (Some rd) /\ source_of ex_recs (complete ex_recs) /\ SpecReader.Sane false ex_recs /\
  ex_runs rd (complete ex_recs) tr s /\ all_done s /\ exported s x /\ shown tr = [ex_host2] /\ faithful ex_host2 "/pol".
Proof.
  pose proof ex_first_step as F. destruct (ex_init ["a.yaml"] "local" "alert" "1") as [[rd|]| | |] eqn:E; try destruct F.
  rename H into Hc, H0 into H1.
  destruct (eng_step X0 mappers (fun _ _ => false) (fun _ _ => []) 9 ex_ah0 rd (live_start rd) ex_files_ch) as [[e' ls]|] eqn:Es; [|destruct H1].
  assert (Sn : SpecReader.Sane false ex_recs) by exact (proj1 C88_hypotheses_case).
  assert (H : ex_runs rd (complete ex_recs) [(2, TStep (Some ex_host2))]
    (mkC (set (app_start rd 0 [] (complete ex_recs)) 2 (DEng e')) (fun _ => []) (fun _ => false) false)).
  { apply (cr_snoc _ _ _ [] _ _ _ (cr_nil _ _ _)). apply cs_step; [reflexivity|]. rewrite <- H1. apply (as_eng _ _ _ _ _ _ _ _ _ _ _ _ _ _ _ _ _ Es). intros r Er. discriminate. }
  destruct (C91_completes _ _ _ _ _ _ _ _ _ _ _ _ _ _ rd [] ex_recs _ _ ltac:(auto) ltac:(rewrite Hc; auto) Sn H) as (tr' & s' & H' & D & W).
  destruct D as (D0 & D1 & D2 & x & D3).
  exists rd, ([(2, TStep (Some ex_host2))] ++ tr'), s', x. split; [reflexivity|]. split; [now right|]. split; [exact Sn|]. split; [exact H'|].
  split; [exact (conj D0 (conj D1 (conj D2 (ex_intro _ x D3))))|]. split; [exact D3|]. split; [|exact (proj1 C87_hypotheses_case)].
  cbn [List.app]. unfold shown. cbn [flat_map snd]. cbn [List.app]. f_equal.
  clear - W. induction W as [|[i a] l [_ Wk] _ IH]; [reflexivity|]. cbn [flat_map snd] in *. rewrite IH, app_nil_r. destruct a as [| | |[h'|]|]; try reflexivity. destruct (Wk h' eq_refl).
Qed.
