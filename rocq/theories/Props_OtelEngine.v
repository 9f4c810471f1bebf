(** * Properties C93-C94: the policy engine on OpenTelemetry logs, from policy files to its output. *)
From Coq Require Import Permutation.
From Verif Require Import GoBase GoFacts Predicates FalcoModel SpecFalco SigmaModel SpecSigma LexerModel SpecLexer LexFast Samples
  EngineModel SpecEngine OtelModel SpecOtel OtelFacts OtelEngine SpecOtelEngine OtelEngineFacts PoolModel SpecPool PoolFacts3 PoolFacts4
  MonitorModel SpecMonitor InitModel SpecInit InitFacts LiveFacts Props_Grammar Props_Init Props_SigmaLive.
From Verif Require Props_Sigma.
Local Open Scope nat_scope.

Section P.
Variable D : Type.
Variable parse_float : string -> option D.
Variables deq dlt dle : D -> D -> bool.
Variable regcomp : string -> option (string -> string).
Variable enum : logs D -> rule (logs D) -> list string -> list string.
Variables (pmatch : string -> string -> bool) (ord : srule -> list nat -> list (string * search)) (n : nat).
Variable (ah : ahandler (logs D)).
Notation ops := (o_ops D parse_float deq dlt dle regcomp).
Notation o_disposed := (o_disposed D parse_float deq dlt dle).
Notation so_disposed := (so_disposed D parse_float deq dlt dle regcomp pmatch).
Notation o_told_once := (o_told_once D parse_float deq dlt dle).
Notation proc := (engine_proc (o_applicable D) (o_add D enum) ah).
(** A map of tags may be walked in any order. *)
Definition walked : Prop := forall r ru l, Permutation (enum r ru l) l.

Lemma f2_restrict {A B} (P : A -> Prop) (Q : A -> B -> Prop) l l' : Forall P l -> Forall2 (fun a b => P a -> Q a b) l l' -> Forall2 Q l l'.
Proof. intros H F. induction F; [constructor|]. inversion H; subst. constructor; auto. Qed.
Lemma concat_forall {A} (P : A -> Prop) (ls : list (list A)) : Forall P (concat ls) -> Forall (Forall P) ls.
Proof. induction ls as [|l ls IH]; cbn; intros H; constructor; apply Forall_app in H as [H1 H2]; auto. Qed.
Lemma f2_eras {E A B} (P : A -> Prop) (Q : E -> A -> B -> Prop) (eras : list (E * list A)) oss : Forall P (concat (map snd eras)) ->
  Forall2 (fun era os => Forall2 (fun a b => P a -> Q (fst era) a b) (snd era) os) eras oss ->
  Forall2 (fun era os => Forall2 (Q (fst era)) (snd era) os) eras oss.
Proof.
  intros H F. apply concat_forall in H. induction F as [|[e l] os eras oss H1 F IH]; [constructor|]. cbn [map snd] in H. inversion H as [|? ? G1 G2]; subst.
  constructor; [|auto]. cbn [fst snd] in *. exact (f2_restrict _ _ _ _ G1 H1).
Qed.

(** C93.  The engine on logs, without a monitor: once it has finished, under every schedule and with
    any number of workers, each output channel received exactly what becomes of the logs taken in,
    as the policy texts say. *)
Theorem C93_texts_to_output :
  walked -> harmless D ah -> forall h conf d m outCh rd cs s tr,
  policies_in conf d -> language_is conf Falco -> monitor_is conf NoneType -> mode_is conf m -> faithful h d -> NoDup outCh ->
  init ops pmatch ord n h conf = Ok (Some rd) ->
  run (proc m) (Z.to_nat (c_concurrency (rd_conf rd))) outCh (pool_start rd) cs = (s, tr) ->
  finished s -> Forall (regular D) (taken tr) ->
  exists texts dss, texts_of h d texts /\ Forall2 text_reads texts dss /\
  forall c, In c outCh ->
  exists os, Forall2 (o_disposed dss m) (taken tr) os /\ Permutation (emitted c tr) (concat os).
Proof.
  intros W Hh h conf d m outCh rd cs s tr Hd Hl Hmon _ Hf ND Hi Hr Fi Rg.
  destruct (static_gen ops pmatch ord n (o_applicable D) (o_add D enum) ah m conf (fun h' => faithful h' d)
    (fun h' dss => exists texts, texts_of h' d texts /\ Forall2 text_reads texts dss) (fun dss r o => regular D r -> o_disposed dss m r o)
    (fun h' p Hg Hp => interpreter_logs D parse_float deq dlt dle regcomp enum W pmatch ord n h' conf d ah m p Hd Hl Hh Hg Hp)
    h d outCh rd cs s tr Hd Hmon Hf ND Hi Hr Fi) as (dss & (texts & T1 & T2) & Q).
  exists texts, dss. split; [assumption|]. split; [assumption|]. intros c Hc. destruct (Q c Hc) as (os & F & Pe). exists os. split; [|exact Pe].
  exact (f2_restrict _ _ _ _ Rg F).
Qed.
(** With a monitored directory: eras, each governed by the texts some observation of the directory
    showed, in order. *)
Theorem C93_eras :
  walked -> harmless D ah -> forall h conf d m outCh rd chs s pol tr,
  policies_in conf d -> language_is conf Falco -> monitor_is conf LocalType -> mode_is conf m ->
  faithful h d -> (forall h', In h' (batches chs) -> faithful h' d) -> NoDup outCh ->
  init ops pmatch ord n h conf = Ok (Some rd) ->
  live_run ops pmatch ord n (proc m) (Z.to_nat (c_concurrency (rd_conf rd))) outCh (rd_conf rd) (live_start rd) chs = ((s, pol), tr) ->
  finished s -> Forall (regular D) (taken tr) ->
  exists hs eras, subseq hs (batches chs) /\ taken tr = concat (map snd eras) /\
    Forall2 (fun h' era => exists texts, texts_of h' d texts /\ Forall2 text_reads texts (fst era)) (h :: hs) eras /\
    forall c, In c outCh -> exists oss,
      Forall2 (fun era os => Forall2 (o_disposed (fst era) m) (snd era) os) eras oss /\
      Permutation (emitted c tr) (concat (map (@concat (logs D)) oss)).
Proof.
  intros W Hh h conf d m outCh rd chs s pol tr Hd Hl Hmon _ Hf Hfs ND Hi Hr Fi Rg.
  destruct (eras_gen ops pmatch ord n (o_applicable D) (o_add D enum) ah m conf (fun h' => faithful h' d)
    (fun h' dss => exists texts, texts_of h' d texts /\ Forall2 text_reads texts dss) (fun dss r o => regular D r -> o_disposed dss m r o)
    (fun h' p Hg Hp => interpreter_logs D parse_float deq dlt dle regcomp enum W pmatch ord n h' conf d ah m p Hd Hl Hh Hg Hp)
    h d outCh rd chs s pol tr Hd Hmon Hf Hfs ND Hi Hr Fi) as (hs & eras & S & T & F & Q).
  exists hs, eras. repeat (split; [assumption|]). intros c Hc. destruct (Q c Hc) as (oss & F2 & Pe). exists oss. split; [|exact Pe].
  rewrite T in Rg. exact (f2_eras _ (fun dss r o => o_disposed dss m r o) _ _ Rg F2).
Qed.
(** Sigma rules on logs. *)
Theorem C93_sigma :
  walked -> walks ord -> harmless D ah -> forall h conf d m outCh rd cs s tr,
  policies_in conf d -> language_is conf Sigma -> monitor_is conf NoneType -> mode_is conf m -> h_perf h = false -> NoDup outCh ->
  init ops pmatch ord n h conf = Ok (Some rd) ->
  run (proc m) (Z.to_nat (c_concurrency (rd_conf rd))) outCh (pool_start rd) cs = (s, tr) ->
  finished s -> Forall (regular D) (taken tr) ->
  exists maps rules, sigma_of h conf d (maps, rules) /\
  forall c, In c outCh ->
  exists os, Forall2 (so_disposed maps rules m) (taken tr) os /\ Permutation (emitted c tr) (concat os).
Proof.
  intros W Wo Hh h conf d m outCh rd cs s tr Hd Hl Hmon _ Hp ND Hi Hr Fi Rg.
  destruct (static_gen ops pmatch ord n (o_applicable D) (o_add D enum) ah m conf (fun h' => h_perf h' = false)
    (fun h' ms => sigma_of h' conf d ms) (fun ms r o => regular D r -> so_disposed (fst ms) (snd ms) m r o)
    (fun h' p Hg Hp => interpreter_slogs D parse_float deq dlt dle regcomp enum W pmatch ord n Wo h' conf d ah m p Hd Hl Hh Hg Hp)
    h d outCh rd cs s tr Hd Hmon Hp ND Hi Hr Fi) as ([maps rules] & G & Q).
  exists maps, rules. split; [exact G|]. intros c Hc. destruct (Q c Hc) as (os & F & Pe). exists os. split; [|exact Pe].
  exact (f2_restrict _ _ _ _ Rg F).
Qed.
Theorem C93_sigma_eras :
  walked -> walks ord -> harmless D ah -> forall h conf d m outCh rd chs s pol tr,
  policies_in conf d -> language_is conf Sigma -> monitor_is conf LocalType -> mode_is conf m -> h_perf h = false ->
  (forall h', In h' (batches chs) -> h_perf h' = false) -> NoDup outCh ->
  init ops pmatch ord n h conf = Ok (Some rd) ->
  live_run ops pmatch ord n (proc m) (Z.to_nat (c_concurrency (rd_conf rd))) outCh (rd_conf rd) (live_start rd) chs = ((s, pol), tr) ->
  finished s -> Forall (regular D) (taken tr) ->
  exists hs eras, subseq hs (batches chs) /\ taken tr = concat (map snd eras) /\
    Forall2 (fun h' era => sigma_of h' conf d (fst era)) (h :: hs) eras /\
    forall c, In c outCh -> exists oss,
      Forall2 (fun era os => Forall2 (so_disposed (fst (fst era)) (snd (fst era)) m) (snd era) os) eras oss /\
      Permutation (emitted c tr) (concat (map (@concat (logs D)) oss)).
Proof.
  intros W Wo Hh h conf d m outCh rd chs s pol tr Hd Hl Hmon _ Hp Hps ND Hi Hr Fi Rg.
  destruct (eras_gen ops pmatch ord n (o_applicable D) (o_add D enum) ah m conf (fun h' => h_perf h' = false)
    (fun h' ms => sigma_of h' conf d ms) (fun ms r o => regular D r -> so_disposed (fst ms) (snd ms) m r o)
    (fun h' p Hg Hp => interpreter_slogs D parse_float deq dlt dle regcomp enum W pmatch ord n Wo h' conf d ah m p Hd Hl Hh Hg Hp)
    h d outCh rd chs s pol tr Hd Hmon Hp Hps ND Hi Hr Fi) as (hs & eras & S & T & F & Q).
  exists hs, eras. repeat (split; [assumption|]). intros c Hc. destruct (Q c Hc) as (oss & F2 & Pe). exists oss. split; [|exact Pe].
  rewrite T in Rg. exact (f2_eras _ (fun ms r o => so_disposed (fst ms) (snd ms) m r o) _ _ Rg F2).
Qed.
(** When no condition or macro names one of the processor's own attributes, the rules that fire are
    selected by the log as it came in, and what leaves is the log with one scope added at the end,
    holding the names of these rules in order and their tags. *)
Theorem C93_annotations_invisible :
  forall dss m res scopes o, looks_away dss -> Forall (foreign D) scopes ->
  o_disposed dss m (mkLogs D res scopes) o -> o_told_once dss m (mkLogs D res scopes) o.
Proof. exact (away_once D parse_float deq dlt dle (fun _ => None)). Qed.

(** C94.  On a log that has a resource and no value that makes a test crash, no test crashes. *)
Theorem C94_tests_answer :
  forall (K : string -> Prop) r k, calm D K r -> K k ->
  (forall x op, exists b, o_compare D parse_float deq dlt dle k x op r = Ok b) /\
  (forall ys op, exists b, o_foldany D parse_float deq dlt dle k ys op r = Ok b) /\
  (forall ys op, exists b, o_foldall D parse_float deq dlt dle k ys op r = Ok b) /\
  (exists b, o_exists D k r = Ok b) /\
  (forall find, exists b, o_regexp D find k r = Ok b).
Proof. exact (calm_ok D parse_float deq dlt dle). Qed.
(** The annotations of an engine keep it so, but for the tags attribute. *)
Theorem C94_kept_partial :
  forall (K : string -> Prop) dss res scopes fired r', Forall (foreign D) scopes -> calm D K (mkLogs D res scopes) ->
  in_turn D (o_rule_fires D parse_float deq dlt dle) (told D) dss (mkLogs D res scopes) fired r' ->
  calm D (fun k => K k /\ k <> "sf.processor.tags") r'.
Proof.
  intros K dss res scopes fired r' F C H. 
  assert (T : forall a r r1, told D a r r1 -> exists nm ts, noted D nm ts r r1) by (intros a r r1 (ts0 & ts & _ & _ & _ & N); eauto).
  exact (calm_in_turn D parse_float (fun _ => None) K _ _ dss res scopes fired r' T F C H).
Qed.
(** Refuted for the tags attribute: a firing rule without tags leaves an empty array there, and a
    prefix test of a later rule on it crashes. *)
Theorem C94_tags_refuted :
  forall rule a scopes r1 x, Forall (foreign D) scopes -> (forall v, ~ In ("sf.processor.tags", v) (attributes D a scopes)) ->
  noted D rule [] (mkLogs D (Some a) scopes) r1 -> o_compare D parse_float deq dlt dle "sf.processor.tags" x OpStartswith r1 = Panic.
Proof. exact (untagged_crash D parse_float deq dlt dle). Qed.
End P.
Print Assumptions C93_texts_to_output.
Print Assumptions C93_eras.
Print Assumptions C93_sigma.
Print Assumptions C93_sigma_eras.
Print Assumptions C93_annotations_invisible.
Print Assumptions C94_tests_answer.
Print Assumptions C94_kept_partial.
Print Assumptions C94_tags_refuted.

(** The policy of C83 on logs (integers stand for doubles). *)
Definition lx_ops := o_ops Z (fun _ => None) Z.eqb Z.ltb Z.leb (fun _ => Some (fun s => s)).
Definition lx_ah : ahandler (logs Z) := new_ahandler [].
Definition lx_log (p : string) : logs Z := mkLogs Z (Some [("sf.proc.name", AStr Z p)]) [mkSL Z None [[("sf.opflags", AStr Z "EXEC")]]].
Definition lx_init := init lx_ops (fun _ _ => false) (fun _ _ => []) 9 (ex_host ["a.yaml"]) (ex_conf "none" "alert" "1").
Definition lx_sched : list (choice (policies (logs Z)) (logs Z)) :=
  [CInput (Some (lx_log "zsh")); CExpired false; CMain; CWorker 0 0; CWorker 0 0; CWorker 0 0; CWorker 0 0;
   CInput (Some (lx_log "vi")); CExpired false; CMain; CWorker 0 0; CWorker 0 0; CWorker 0 0; CWorker 0 0; CInput None; CMain; CMain; CWorker 0 0; CWorker 0 0; CMain; CMain; CMain; CMain].
Example C93_case :
  match lx_init with
  | Ok (Some rd) =>
      let (s, tr) := run (engine_proc (o_applicable Z) (o_add Z (fun _ _ l => l)) lx_ah AlertMode) (Z.to_nat (c_concurrency (rd_conf rd))) [7] (pool_start rd) lx_sched in
      s_main s = MEnd /\ taken tr = [lx_log "zsh"; lx_log "vi"] /\
      emitted 7 tr = [mkLogs Z (Some [("sf.proc.name", AStr Z "zsh")]) [mkSL Z None [[("sf.opflags", AStr Z "EXEC")]]; own Z ["Shell"] []]]
  | _ => False
  end.
Proof. vm_compute. repeat split; reflexivity. Qed.
Example C93_hypotheses_case :
  walked Z (fun _ _ l => l) /\ harmless Z lx_ah /\ faithful (ex_host ["a.yaml"]) "/pol" /\ language_is (ex_conf "none" "alert" "1") Falco /\
  regular Z (lx_log "zsh") /\ looks_away [ex_ds] /\ (forall K, calm Z K (lx_log "zsh")).
Proof.
  split; [intros r ru l; apply Permutation_refl|]. split; [intros a f r H; discriminate|].
  split; [exact (proj1 (proj2 (proj2 C86_hypotheses_case)))|].
  split; [right; split; [intros s H; discriminate|reflexivity]|].
  assert (F : Forall (foreign Z) [mkSL Z None [[("sf.opflags", AStr Z "EXEC")]]]) by (constructor; [intros s H; discriminate|constructor]).
  split; [exists (Some [("sf.proc.name", AStr Z "zsh")]), [mkSL Z None [[("sf.opflags", AStr Z "EXEC")]]]; split; [exact F|now left]|].
  split.
  - intros ds d k [<-|[]] Hd Hk [E|E]; subst k; repeat (destruct Hd as [<-|Hd]; [cbn in Hk; repeat (destruct Hk as [Hk|Hk]; [discriminate|]); destruct Hk|]); destruct Hd.
  - intros K. split; [discriminate|]. intros k v op _ H. cbn in H.
    inversion H as [k' w l1 v1 Hk1 H1|l1 v1 H1|w l1 Hl|l1 l2 v1 H1]; subst; [|cbn; tauto].
    inversion H1 as [k2 w2 l3 v3 Hk3 H3|l3 v3 H3|w2 l3 Hl3|l3 l4 v3 H3]; subst; [inversion H3|cbn; tauto].
Qed.
(** A rule that looks at what an earlier one noted may fire because of it; whether this one does
    depends on the order in which the map of tags is walked. *)
Definition lx_pol : list decl :=
  [DRule (mkRuleDecl "r1" "d" [[TBin "sf.proc.name" BEq "zsh"]] [OTags (mkItems ["t"; "u"; "t"] false)]);
   DRule (mkRuleDecl "r2" "d" [[TBin "sf.processor.rules" BContains "r1"; TBin "sf.processor.tags" BStartswith "t"]] [OTags (mkItems ["v"] false)])].
Example C93_turn_case :
  match compile lx_ops 9 [Some (lx_pol, false)] with
  | Ok (Some (rules, filters)) =>
      let seen := [mkSL Z None [[("sf.opflags", AStr Z "EXEC")]]] in
      outs (snd (o_work Z (fun _ _ l => rev l) lx_ah EnrichMode filters rules (lx_log "zsh"))) =
        [mkLogs Z (Some [("sf.proc.name", AStr Z "zsh")]) (seen ++ [own Z ["r1"; "r2"] ["t"; "u"; "v"]])] /\
      outs (snd (o_work Z (fun _ _ l => l) lx_ah EnrichMode filters rules (lx_log "zsh"))) =
        [mkLogs Z (Some [("sf.proc.name", AStr Z "zsh")]) (seen ++ [own Z ["r1"] ["u"; "t"]])]
  | _ => False
  end.
Proof. vm_compute. auto. Qed.
Example C94_tags_case :
  noted Z "Shell" [] (lx_log "zsh") (mkLogs Z (Some [("sf.proc.name", AStr Z "zsh")]) [mkSL Z None [[("sf.opflags", AStr Z "EXEC")]]; own Z ["Shell"] []]) /\
  forall v, ~ In ("sf.processor.tags", v) (attributes Z [("sf.proc.name", AStr Z "zsh")] [mkSL Z None [[("sf.opflags", AStr Z "EXEC")]]]).
Proof.
  split; [apply (nt_first Z "Shell" [] (Some [("sf.proc.name", AStr Z "zsh")]) [mkSL Z None [[("sf.opflags", AStr Z "EXEC")]]]); constructor; [intros s H; discriminate|constructor]|].
  intros v [H|[H|[]]]; discriminate.
Qed.
