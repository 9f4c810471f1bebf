(** * Props_Targets: C119, the shipped pipeline up to each of its targets. *)
From Coq Require Import Lia Permutation.
From Verif Require ReaderModel SpecReader SpecJson JsonFlat.
From Verif Require Import GoBase GoFacts Predicates FlatRecord FieldTables Samples FalcoModel SpecFalco SpecFlat SigmaModel LexerModel SpecLexer
  EngineModel EngineFlat SpecEngine SpecEngineFlat PoolModel SpecPool MonitorModel SpecMonitor InitModel SpecInit InitFacts
  FlattenModel SpecFlatten ExportModel SpecExport ExportFacts NetModel SpecNet AppModel SpecApp AppFacts TargetFacts Props_Init Props_App.
Local Open Scope nat_scope.

(** The targets, with the JSON encoder and whatever they refuse ([ok], [w], [wn]), after the batches [bs]:
    the lines on the terminal, the messages syslog took, those Kafka took, and the file. *)
Section Targets.
Variables (X : sfgo_fns) (two : bool) (version : string) (bs : list (list sfrec)).
Definition on_terminal : string := file_after "" (process_all (encode_all (enc_json X two version)) (fun _ ds => (terminal_export ds, false)) 0 bs).
Definition in_syslog (ok : nat -> bool) : list string := delivered (process_all (encode_all (enc_json X two version)) (syslog_export ok) 0 bs).
Definition in_kafka (ok : nat -> bool) : list string := delivered (process_all (encode_all (enc_json X two version)) (fun i ds => (kafka_export ok i ds, false)) 0 bs).
Definition in_file (w wn : nat -> wres) (old : string) : string := file_after (file_init true old) (process_all (encode_all (enc_json X two version)) (file_export w wn) 0 bs).
End Targets.

Section S.
Variables (P : payloads) (clk : nat -> Z) (ipstr : Z -> string) (jsonsvcs : list service -> string) (hash : flatrec -> Z)
  (buffer xstart : Z) (ticks : nat -> list (Z * Z)) (times : nat -> Z * Z).
Notation pipeline := (pipeline P clk ipstr jsonsvcs hash buffer xstart ticks times).
Notation sent s := (batches_of (r_sent (s_rt s 3))).

(** The texts of the records exported, one each: the same for every target. *)
Lemma texts_of_run X two version (recs : list sfrec) (bs : list (list sfrec)) : Forall (fun b => b <> []) bs -> concat bs = recs ->
  (forall r, In r recs -> exists l, json_of X two version r = Ok l) ->
  exists lns, Forall2 (fun r l => json_of X two version r = Ok l) recs lns /\
    made_of_lines (on_terminal X two version bs) lns /\
    (forall ok, sublist (in_syslog X two version bs ok) lns /\ ((forall k, ok k = true) -> in_syslog X two version bs ok = lns)) /\
    (forall ok, sublist (in_kafka X two version bs ok) lns /\ ((forall k, ok k = true) -> in_kafka X two version bs ok = lns)) /\
    (forall w wn old, (forall k, w k = WOk) -> (forall k, wn k = WOk) -> made_of_lines (in_file X two version bs w wn old) lns).
Proof.
  intros Hb <- He. destruct (encoded X two version (concat bs) He) as (lns & F & _). exists lns. split; [exact F|].
  assert (F' : Forall2 (fun r l => enc_json X two version r = Some (DBytes l)) (concat bs) lns).
  { clear - F. induction F as [|r l rs ls H _ IH]; constructor; [unfold enc_json; rewrite H; reflexivity|exact IH]. }
  split; [exact (terminal_all _ bs lns 0 "" Hb F')|].
  split; [intros ok; exact (all_taken _ (syslog_export ok) _ (syslog_take ok) bs lns 0 Hb F')|].
  split; [intros ok; exact (all_taken _ (fun i ds => (kafka_export ok i ds, false)) _ (kafka_take ok) bs lns 0 Hb F')|].
  intros w wn old Hw Hn. apply file_lines; assumption.
Qed.

(** C119.  With policies and no monitor, under every schedule, when Wait returns: to the records that
    the policy texts let leave, in the order of export, belong lines, each the JSON text of its record
    where it has one.  The terminal shows exactly these lines; syslog and Kafka take them in this order,
    all but those they refuse or that follow a refused one in its batch; the file, if nothing is
    refused, consists of them. *)
Theorem C119_with_policies :
  forall X M typ, map_str X M "sf.type" = Ok typ ->
  forall pmatch ord n h conf d ah m rd fconf rs width cap r0 ls s,
  policies_in conf d -> language_is conf Falco -> monitor_is conf NoneType -> mode_is conf m ->
  benign ah -> faithful h d -> InitModel.init (sf_ops X M) pmatch ord n h conf = Ok (Some rd) ->
  (forall n, (clk n <= clk (S n))%Z) -> SpecReader.Sane false rs -> 0 < width ->
  let net := pipeline (engine_work X M ah rd) rs fconf width in
  steps net cap (init net r0) ls s -> wait_returns net s ->
  forall txt two version vj, (forall s, SpecJson.clean s (txt s)) -> SpecJson.jtext version vj ->
  exists ds out texts dss os recs lns, Joined rs ds /\ Passed ipstr jsonsvcs hash fconf (events P ds) out /\
    texts_of h d texts /\ Forall2 text_reads texts dss /\
    Forall2 (fun fr o => disposed X M typ dss m (fr, ctx_new) o) out os /\ Permutation recs (concat os) /\
    Forall2 (json_line X txt two vj) recs lns /\
    made_of_lines (on_terminal X two version (sent s)) lns /\
    (forall ok, sublist (in_syslog X two version (sent s) ok) lns /\ ((forall k, ok k = true) -> in_syslog X two version (sent s) ok = lns)) /\
    (forall ok, sublist (in_kafka X two version (sent s) ok) lns /\ ((forall k, ok k = true) -> in_kafka X two version (sent s) ok = lns)) /\
    (forall w wn old, (forall k, w k = WOk) -> (forall k, wn k = WOk) -> made_of_lines (in_file X two version (sent s) w wn old) lns).
Proof.
  intros X M typ Ht pmatch ord n h conf d ah m rd fconf rs width cap r0 ls s Hd Hl Hmon Hm Hb Hf Hi Mono Sn W net H Wt txt two version vj Hc Hv.
  destruct (app_run P clk ipstr jsonsvcs hash _ _ _ _ _ cap rs fconf width r0 ls s W Mono Sn H Wt) as (C & ds & out & recs & J & Pa & Pe & Eb & E).
  destruct (engine_disposed X M typ Ht _ _ _ _ _ _ _ m _ Hd Hl Hmon Hm Hb Hf Hi) as (texts & dss & T & F & D).
  destruct (D out) as (os & Fo & Eo). rewrite Eo in Pe.
  assert (Ne : Forall (fun b => b <> []) (sent s)) by (rewrite Eb; apply batches_nonempty).
  destruct (texts_of_run X two version recs (sent s) Ne E) as (lns & Fl & T1 & T2 & T3 & T4).
  { intros r Hr. apply (Permutation_in _ Pe), in_concat in Hr as (o & Ho & Hr).
    assert (Q : exists fr, In fr out /\ fst r = fr).
    { clear - Fo Ho Hr. induction Fo as [|fr o' out os Hd Fo IH]; [destruct Ho|]. destruct Ho as [->|Ho].
      - exists fr. split; [now left|]. exact (disposed_in _ _ _ _ _ _ _ _ Hd Hr).
      - destruct (IH Ho) as (f & ? & ?). exists f. split; [now right|assumption]. }
    destruct Q as (fr & Hfr & Er). destruct (passed_in _ _ _ _ _ _ _ Pa Hfr) as (xe & _ & ->).
    unfold json_of. rewrite Er. apply JsonFlat.flat_encodes. }
  exists ds, out, texts, dss, os, recs, lns. repeat (split; [assumption|]). split; [|auto].
  clear - Hc Hv Fl. induction Fl as [|r l rs' ls' H Fl IH]; constructor; [exact (line_value _ _ _ _ _ _ _ Hc Hv H)|assumption].
Qed.
(** Without policies every event has its line. *)
Theorem C119_bypass :
  forall X M (ops : operations sfrec) pmatch ord n h conf ah rd fconf rs width cap r0 ls s,
  no_policies conf -> InitModel.init ops pmatch ord n h conf = Ok (Some rd) ->
  (forall n, (clk n <= clk (S n))%Z) -> SpecReader.Sane false rs -> 0 < width ->
  let net := pipeline (engine_work X M ah rd) rs fconf width in
  steps net cap (init net r0) ls s -> wait_returns net s ->
  forall txt two version vj, (forall s, SpecJson.clean s (txt s)) -> SpecJson.jtext version vj ->
  exists ds out recs lns, Joined rs ds /\ Passed ipstr jsonsvcs hash fconf (events P ds) out /\
    Permutation recs (map (fun fr => (fr, ctx_new)) out) /\
    Forall2 (json_line X txt two vj) recs lns /\
    made_of_lines (on_terminal X two version (sent s)) lns /\
    (forall ok, sublist (in_syslog X two version (sent s) ok) lns /\ ((forall k, ok k = true) -> in_syslog X two version (sent s) ok = lns)) /\
    (forall ok, sublist (in_kafka X two version (sent s) ok) lns /\ ((forall k, ok k = true) -> in_kafka X two version (sent s) ok = lns)) /\
    (forall w wn old, (forall k, w k = WOk) -> (forall k, wn k = WOk) -> made_of_lines (in_file X two version (sent s) w wn old) lns).
Proof.
  intros X M ops pmatch ord n h conf ah rd fconf rs width cap r0 ls s Hn Hi Mono Sn W net H Wt txt two version vj Hc Hv.
  destruct (app_run P clk ipstr jsonsvcs hash _ _ _ _ _ cap rs fconf width r0 ls s W Mono Sn H Wt) as (C & ds & out & recs & J & Pa & Pe & Eb & E).
  rewrite (engine_bypass X M ops pmatch ord n h conf ah rd out Hn Hi) in Pe.
  assert (Ne : Forall (fun b => b <> []) (sent s)) by (rewrite Eb; apply batches_nonempty).
  destruct (texts_of_run X two version recs (sent s) Ne E) as (lns & Fl & T1 & T2 & T3 & T4).
  { intros r Hr. apply (Permutation_in _ Pe), in_map_iff in Hr as (fr & <- & Hfr). destruct (passed_in _ _ _ _ _ _ _ Pa Hfr) as (xe & _ & ->).
    unfold json_of. apply JsonFlat.flat_encodes. }
  exists ds, out, recs, lns. repeat (split; [assumption|]). split; [|auto].
  clear - Hc Hv Fl. induction Fl as [|r l rs' ls' H Fl IH]; constructor; [exact (line_value _ _ _ _ _ _ _ Hc Hv H)|assumption].
Qed.
End S.
Print Assumptions C119_with_policies.
Print Assumptions C119_bypass.

(** The run of C88: one record, told of the rule "Shell".  The lines shown and taken (the text itself is
    long), and the one syslog refuses. *)
Definition tg_report rd := let bs := batches_of (r_sent (s_rt (ex_end rd) 3)) in
  let taken := in_syslog X0 true """v""" bs (fun _ => true) in
  (length taken, map (fun l => contains l """Shell""") taken,
   seqb (on_terminal X0 true """v""" bs) (String.concat "" (map (fun l => (l ++ nl)%string) taken)),
   in_syslog X0 true """v""" bs (fun _ => false), length (in_kafka X0 true """v""" bs (fun _ => true)),
   seqb (in_file X0 true """v""" bs (fun _ => WOk) (fun _ => WOk) "old") (on_terminal X0 true """v""" bs)).
Example C119_case :
  match ex_init ["a.yaml"] "none" "alert" "2" with
  | Ok (Some rd) => tg_report rd = (1, [true], true, [], 1, true)
  | _ => False
  end.
Proof. lazy. reflexivity. Qed.
