(** * Property C104: the OpenTelemetry pipeline is killed at any moment and started again. *)
From Coq Require Import Lia Permutation.
From Verif Require DriverModel ExportFacts.
From Verif Require Import GoBase GoFacts Predicates FalcoModel SpecFalco SigmaModel SpecSigma LexerModel SpecLexer
  EngineModel SpecEngine OtelModel SpecOtel OtelEngine SpecOtelEngine PoolModel PoolFacts4
  MonitorModel SpecMonitor InitModel SpecInit ExportModel SpecExport ChainModel ChainFacts SpecRest RestFacts OtelPipe SpecOtelPipe OtelPipeFacts
  CrashModel SpecCrash CrashFacts Props_Grammar Props_Init Props_OtelEngine Props_OtelPipe.
Local Open Scope nat_scope.

Section P.
Variable D : Type.
Variable parse_float : string -> option D.
Variables deq dlt dle : D -> D -> bool.
Variable regcomp : string -> option (string -> string).
Variable enum : logs D -> rule (logs D) -> list string -> list string.
Variables (pmatch : string -> string -> bool) (ord : srule -> list nat -> list (string * search)) (n : nat).
Variables (ah : ahandler (logs D)) (buffer xstart : Z) (cap : nat) (conf : gomap cval).
Variable parse : string -> option (list (logs D)).
Notation ops := (o_ops D parse_float deq dlt dle regcomp).
Notation o_disposed := (o_disposed D parse_float deq dlt dle).
Notation stage rd := (o_stage ops pmatch ord n (o_applicable D) (o_add D enum) ah rd buffer).
Notation enough rd := (0 < cap /\ 0 < Z.to_nat (c_concurrency (rd_conf rd))).
Notation starts h rd := (InitModel.init ops pmatch ord n h conf = Ok (Some rd)).
Notation lives := (lives ops pmatch ord n (o_applicable D) (o_add D enum) ah buffer xstart cap conf parse).
Notation life := (life (logs D)).

(** C104.  No message is passed over: every message before the committed offset was read in some life. *)
Theorem C104_every_message_read :
  forall topic c (ls : list life), lives topic c ls -> c <= length topic /\ forall i, i < c -> exists l, In l ls /\ was_read l i.
Proof. intros topic c ls H. split; [exact (lives_le _ _ _ _ _ _ _ _ _ _ _ _ _ _ _ H)|exact (lives_cover _ _ _ _ _ _ _ _ _ _ _ _ _ _ _ H)]. Qed.

(** At the end of each life, whenever it comes: what was exported in it, with what waits in the exporter and what is in between
    ([rest], [hand], [rs2]), is what the policies make of the logs of the messages read in it; so only what was in memory is not
    exported, and nothing is when the pipeline was at rest with nothing waiting. *)
Theorem C104_each_life :
  walked D enum -> harmless D ah -> forall d m topic c ls l,
  policies_in conf d -> language_is conf Falco -> monitor_is conf LocalType -> mode_is conf m ->
  lives topic c ls -> In l ls -> faithful (l_host l) d -> (forall h', In h' (o_shown (l_trace l)) -> faithful h' d) ->
  Forall (regular D) (logs_of parse topic) ->
  exists rs1 rs2 hs eras hand oss rest, logs_of parse (messages topic l) = rs1 ++ rs2 /\ subseq hs (o_shown (l_trace l)) /\ rs1 = concat (map snd eras) ++ hand /\ length hand <= 1 /\
    Forall2 (fun h' era => exists texts, texts_of h' d texts /\ Forall2 text_reads texts (fst era)) (l_host l :: hs) eras /\
    Forall2 (fun era os => Forall2 (o_disposed (fst era) m) (snd era) os) eras oss /\
    Permutation (concat (map (@concat (logs D)) oss)) ((exports l ++ waiting l) ++ rest) /\
    (enough (l_ready l) -> o_still (stage (l_ready l)) cap (l_end l) -> rs2 = [] /\ hand = [] /\ rest = []).
Proof.
  intros W Hh d m topic c ls l Hd Hl Hmon Hm H Hin Hf Hfs Rg.
  pose proof (lives_one _ _ _ _ _ _ _ _ _ _ _ _ _ _ _ _ H Hin) as L. pose proof (lived_source _ _ _ _ _ _ _ _ _ _ _ _ _ _ L) as A. destruct L as (_ & Li & Lr & _ & _).
  assert (Rg' : Forall (regular D) (logs_of parse (messages topic l))).
  { rewrite Forall_forall in *. intros r Hr. apply Rg. unfold logs_of in *. apply in_flat_map in Hr as (s & Hs & Hr). apply in_flat_map. exists s. split; [|exact Hr].
    unfold messages in Hs. rewrite <- (firstn_skipn (l_from l) topic). apply in_or_app. right.
    rewrite <- (firstn_skipn (l_read l) (skipn (l_from l) topic)). apply in_or_app. left. exact Hs. }
  destruct (o_moment _ _ _ _ _ _ _ _ _ _ _ _ _ A _ _ Lr) as (_ & _ & _ & _ & _ & _ & x & _ & _ & _ & _ & _ & _ & Ex & _).
  destruct (C101_every_moment D parse_float deq dlt dle regcomp enum pmatch ord n ah buffer xstart cap W Hh (l_host l) conf d m (l_ready l) _ _ (l_trace l) (l_end l) x Hd Hl Hmon Hm Hf Hfs Li A Rg' Lr Ex)
    as (rs1 & rs2 & hs & eras & hand & oss & rest & Er & S1 & T1 & L1 & F1 & F2 & Pe & Q).
  exists rs1, rs2, hs, eras, hand, oss, rest. repeat (split; [assumption|]). split.
  { unfold exports, waiting. rewrite Ex. exact Pe. }
  intros En St. destruct (Q En (or_introl St)) as (-> & -> & -> & _). auto.
Qed.

(** But a message can be lost.  Whatever has happened so far and whatever the policies: the next message may be read and its offset
    committed before anything else is done with it; if the processor ends then, its logs are not exported, and no later life reads
    the message again. *)
Theorem C104_lost_refuted :
  forall h rd topic c ls, starts h rd -> lives topic c ls -> c < length topic ->
  exists l, lives topic (S c) (ls ++ [l]) /\ was_read l c /\ exports l = [] /\
    forall c' later, lives topic c' ((ls ++ [l]) ++ later) -> Forall (fun l' => ~ was_read l' c) later.
Proof.
  intros h rd topic c ls Hi H Hc. destruct (one_lost _ _ _ _ _ _ _ _ _ _ _ _ h rd topic c ls Hi H Hc) as (l & L & Hr & He). exists l. split; [exact L|]. split; [exact Hr|]. split; [exact He|].
  intros c' later H'. pose proof (never_again _ _ _ _ _ _ _ _ _ _ _ _ topic (S c) (ls ++ [l]) later c' L H') as F. eapply Forall_impl; [|exact F]. intros l' Hl' [Hw _]. cbn in Hl'. lia.
Qed.
(** So all of a topic can be lost, message after message. *)
Theorem C104_all_lost_refuted :
  forall h rd topic, starts h rd -> exists ls, lives topic (length topic) ls /\ Forall (fun l => exports l = []) ls.
Proof. intros h rd topic Hi. destruct (all_lost _ _ _ _ (o_applicable D) (o_add D enum) ah buffer xstart cap conf parse h rd topic Hi (length topic) (le_n _)) as (ls & H1 & H2 & _). exists ls. auto. Qed.

(** And logs can be exported any number of times: without policies, every life may export the whole topic and end before its
    offsets are committed. *)
Theorem C104_repeated_refuted :
  forall h rd topic, no_policies conf -> starts h rd -> enough rd -> (forall m, In m topic -> parse m <> None) ->
  forall k, exists ls, length ls = k /\ lives topic 0 ls /\ Forall (fun l => exports l = logs_of parse topic) ls.
Proof.
  intros h rd topic Hn Hi [Hc Hw] Hp k.
  assert (Es : sends parse topic = map DriverModel.ASend (logs_of parse topic)) by exact (sends_good _ _ Hp).
  assert (A : o_source (logs_of parse topic) (sends parse topic)) by (exists []; rewrite app_nil_r; auto).
  assert (Na : ~ In DriverModel.AWait (sends parse topic)).
  { rewrite Es. intros Hx. apply in_map_iff in Hx as (r & E & _). discriminate. }
  destruct (C101_comes_to_rest D parse_float deq dlt dle regcomp enum pmatch ord n ah buffer xstart cap rd _ _ [] _ (conj Hc Hw) A (cr_nil _ _ _)) as [(tr & s & H & St & _) _]. cbn [app] in H.
  destruct (o_moment _ _ _ _ _ _ _ _ _ _ _ _ _ A _ _ H) as (_ & _ & _ & _ & _ & _ & x & _ & _ & _ & _ & _ & _ & Ex & _).
  destruct (C101_every_moment_bypass D parse_float deq dlt dle regcomp enum pmatch ord n ah buffer xstart cap h conf rd _ _ tr s x Hn Hi A H Ex) as (rest & Er & Q).
  destruct (Q (conj Hc Hw) (or_introl St)) as [-> Hh]. rewrite app_nil_r in Er.
  pose proof (at_rest_sent ops pmatch ord n (o_applicable D) (o_add D enum) ah buffer xstart cap rd _ _ tr s Hc Hw A Na H St) as E0.
  assert (Fin : exists tr' s' x', o_run_to ops pmatch ord n (o_applicable D) (o_add D enum) ah rd buffer xstart cap (sends parse topic) tr' s' /\
                c_st s' 0 = OSrc [] /\ c_st s' 2 = OExp x' /\ concat (x_batches x') = logs_of parse topic).
  { destruct (x_open x) eqn:Ho.
    - destruct (C101_flushed D parse_float deq dlt dle regcomp enum pmatch ord n ah buffer xstart cap rd _ _ tr s x (x_last x + 1000000001)%Z A H Ex Ho) as (s' & x' & H' & Ex' & _ & Eb & Eo & _); [lia|].
      exists (tr ++ [(2, TStep None)]), s', x'. split; [exact H'|]. split; [rewrite Eo by discriminate; exact E0|]. split; [exact Ex'|]. rewrite Eb. symmetry. exact Er.
    - exists tr, s, x. split; [exact H|]. split; [exact E0|]. split; [exact Ex|]. rewrite (Hh eq_refl), app_nil_r in Er. symmetry. exact Er. }
  destruct Fin as (tr' & s' & x' & H' & E0' & Ex' & Eb).
  set (l := mkLife 0 (length topic) 0 h rd tr' s').
  assert (Em : messages topic l = topic) by (unfold messages; cbn [l_from l_read l skipn]; apply firstn_all).
  assert (L : CrashModel.lived ops pmatch ord n (o_applicable D) (o_add D enum) ah buffer xstart cap conf parse topic l).
  { unfold CrashModel.lived. rewrite Em. cbn [l l_from l_read l_next l_host l_ready l_trace l_end]. split; [lia|]. split; [exact Hi|]. split; [exact H'|]. split; [|lia].
    intros ms' mm E. split; [intros m' Hm'; apply Hp; rewrite E; apply in_or_app; now left|]. exists []. split; [exact E0'|]. cbn. lia. }
  exists (repeat l k). split; [apply repeat_length|]. split; [exact (same_again _ _ _ _ _ _ _ _ _ _ _ _ topic l L eq_refl eq_refl k)|].
  apply Forall_forall. intros y Hy. apply repeat_spec in Hy. subst y. unfold exports. cbn [l_end l]. rewrite Ex'. exact Eb.
Qed.

(** One message that is not one of logs, and the lives that follow end at it, as long as none of them commits its offset in the
    moment between reading it and ending. *)
Theorem C104_bad_message_refuted :
  forall topic c ls k m, lives topic c ls -> nth_error topic k = Some m -> parse m = None -> Forall (fun l => l_next l <= k) ls ->
  c <= k /\ Forall (fun l => forall i, k < i -> ~ was_read l i) ls.
Proof.
  intros topic c ls k m H Hk Hb F. destruct (stuck_at_bad _ _ _ _ _ _ _ _ _ _ _ _ topic c ls k m H Hk Hb F) as [Hc Fl]. split; [exact Hc|].
  eapply Forall_impl; [|exact Fl]. intros l Hl i Hi [_ Hw]. cbn in Hl. lia.
Qed.
End P.
Print Assumptions C104_every_message_read.
Print Assumptions C104_each_life.
Print Assumptions C104_lost_refuted.
Print Assumptions C104_all_lost_refuted.
Print Assumptions C104_repeated_refuted.
Print Assumptions C104_bad_message_refuted.

(** A topic with a message that is not one of logs; the first life reads the first message, exports what there is to export and
    commits its offset; the second ends at that message; no later one gets past it.  And the histories of the other theorems. *)
Definition cx_topic := ["m1"; "m2"; "oops"; "m3"].
Definition cx_lives conf := lives lx_ops (fun _ _ => false) (fun _ _ => []) 9 (o_applicable Z) px_add lx_ah 2 0 1 conf px_parse.
Example C104_hypotheses_case :
  let conf := ex_conf "local" "alert" "1" in
  walked Z (fun _ _ l => l) /\ harmless Z lx_ah /\ policies_in conf "/pol" /\ language_is conf Falco /\ monitor_is conf LocalType /\ mode_is conf AlertMode /\
  faithful (ex_host ["a.yaml"]) "/pol" /\ Forall (regular Z) (logs_of px_parse cx_topic) /\
  nth_error cx_topic 2 = Some "oops" /\ px_parse "oops" = None /\
  exists l1 l2, cx_lives conf cx_topic 1 [l1; l2] /\ was_read l1 0 /\ was_read l2 2 /\ Forall (fun l => l_next l <= 2) [l1; l2] /\
    l_host l1 = ex_host ["a.yaml"] /\ o_shown (l_trace l1) = [] /\
    o_still (o_stage lx_ops (fun _ _ => false) (fun _ _ => []) 9 (o_applicable Z) px_add lx_ah (l_ready l1) 2) 1 (l_end l1) /\
    0 < Z.to_nat (c_concurrency (rd_conf (l_ready l1))).
Proof.
  intros conf. destruct C101_hypotheses_case as (_ & _ & Hw & Ha & Hp & Hl & Hm & Hmo & Hf & rd & _ & _ & _ & Hi & _).
  do 7 (split; [assumption|]). split.
  { assert (Rg : forall p, regular Z (lx_log p)).
    { intros p. exists (Some [("sf.proc.name", AStr Z p)]), [mkSL Z None [[("sf.opflags", AStr Z "EXEC")]]]. split; [|left; reflexivity]. constructor; [intros s H; discriminate|constructor]. }
    constructor; [apply Rg|constructor; [apply Rg|constructor; [apply Rg|constructor]]]. }
  split; [reflexivity|]. split; [reflexivity|].
  assert (Hn : 0 < Z.to_nat (c_concurrency (rd_conf rd))).
  { pose proof px_first_step as F. rewrite Hi in F. rewrite (proj1 F). auto. }
  assert (A : o_source (logs_of px_parse ["m1"]) (sends px_parse ["m1"])) by (exists []; split; [reflexivity|now left]).
  assert (Na : ~ In DriverModel.AWait (sends px_parse ["m1"])) by (intros [H|[H|[]]]; discriminate).
  destruct (C101_comes_to_rest Z (fun _ => None) Z.eqb Z.ltb Z.leb (fun _ => Some (fun s => s)) (fun _ _ l => l) (fun _ _ => false) (fun _ _ => []) 9 lx_ah 2 0 1 rd _ _ [] _ (conj (le_n 1) Hn) A (cr_nil _ _ _)) as [(tr & s & H & St & W) _].
  cbn [List.app] in H.
  pose proof (at_rest_sent lx_ops (fun _ _ => false) (fun _ _ => []) 9 (o_applicable Z) px_add lx_ah 2 0 1 rd _ _ tr s (le_n 1) Hn A Na H St) as E0.
  set (l1 := mkLife 0 1 1 (ex_host ["a.yaml"]) rd tr s).
  set (l2 := mkLife 1 2 1 (ex_host ["a.yaml"]) rd [] (cinit (o_start rd 0 (sends px_parse ["m2"; "oops"])))).
  exists l1, l2. split.
  { apply (lv_more _ _ _ _ _ _ _ _ _ _ _ _ cx_topic 1 [l1] l2); [|reflexivity|].
    - apply (lv_more _ _ _ _ _ _ _ _ _ _ _ _ cx_topic 0 [] l1); [apply lv_none|reflexivity|].
      split; [cbn; lia|]. split; [exact Hi|]. split; [exact H|]. split; [|cbn; lia].
      intros ms' m E. change (messages cx_topic l1) with ["m1"] in E. destruct ms' as [|a [|b ms']]; [|discriminate|discriminate].
      split; [intros m' []|]. exists []. split; [exact E0|]. apply Nat.le_0_l.
    - split; [cbn; lia|]. split; [exact Hi|]. split; [apply cr_nil|]. split; [|cbn; lia].
      intros ms' m E. change (messages cx_topic l2) with ["m2"; "oops"] in E. change ["m2"; "oops"] with (["m2"] ++ ["oops"]) in E. apply app_inj_tail in E as [<- <-].
      split; [intros m' [<-|[]]; discriminate|]. exists [DriverModel.AClose]. split; [reflexivity|apply le_n]. }
  split; [unfold was_read; cbn; lia|]. split; [unfold was_read; cbn; lia|]. split; [repeat constructor|]. split; [reflexivity|]. split; [|split; [exact St|exact Hn]].
  cbn [l_trace l1]. clear - W. induction W as [|[i a] l [_ Wk] _ IH]; [reflexivity|]. unfold o_shown in *. cbn [flat_map snd] in *. rewrite IH, app_nil_r. destruct a as [| | |[h'|]|]; try reflexivity. destruct (Wk h' eq_refl).
Qed.
Example C104_repeated_case :
  let conf := [("mode", CStr "enrich")] in
  no_policies conf /\ (forall m, In m ["m1"; "m3"] -> px_parse m <> None) /\ logs_of px_parse ["m1"; "m3"] = [lx_log "zsh"; lx_log "vi"; lx_log "ksh"] /\
  exists rd, init lx_ops (fun _ _ => false) (fun _ _ => []) 9 (ex_host ["a.yaml"]) conf = Ok (Some rd) /\ 0 < Z.to_nat (c_concurrency (rd_conf rd)).
Proof.
  intros conf. assert (Hn : no_policies conf) by (intros d H; discriminate). split; [exact Hn|]. split; [intros m [<-|[<-|[]]]; discriminate|]. split; [reflexivity|].
  eexists. split; [vm_compute; reflexivity|]. vm_compute. repeat constructor.
Qed.
