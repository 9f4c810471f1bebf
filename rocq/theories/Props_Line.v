(** * Property C116: what an exported line of JSON says about the event in the trace. *)
From Coq Require Import Lia Permutation.
From Verif Require ReaderModel SpecReader SpecJson JsonModel JsonFacts2 JsonFacts6 JsonFlat.
From Verif Require Import GoBase GoFacts Predicates FlatRecord FieldTables Samples EngineModel EngineFlat SpecEngineFlat InitModel SpecInit SpecLexer
  FlattenModel SpecFlatten ExportModel NetModel SpecNet AppModel SpecApp AppFacts Props_Json Props_App SpecLine LineFacts.
Import SpecJson (JNull, JBool, JNum, JStr, JArr, JObj).
Local Open Scope nat_scope.

(** C116.  Every event is exported as some text; the text is JSON exactly for the events that can be told ([told]: the ancestry is known, a pod has at most one
    address and service); and then it says [event_value], nothing else, no name twice. *)
Theorem C116_line : forall (R : Type) X ipstr jsonsvcs txt two version vj x e (ctx : context (rule R)),
  names_types X -> (forall z t, Forall SpecJson.plain_name (x_opflags X z t)) -> (forall z, Forall SpecJson.plain_name (x_openflags X z)) ->
  (forall s, SpecJson.clean s (txt s)) -> SpecJson.jtext version vj -> SpecJson.unique vj ->
  exists s, JsonModel.encode_json X two version (flatten ipstr jsonsvcs x e) ctx = Ok s /\ ((exists v, SpecJson.jtext s v) <-> told x e) /\
    (told x e -> (forall v, SpecJson.jtext s v <-> v = event_value X txt two x e vj ctx) /\ SpecJson.unique (event_value X txt two x e vj ctx)).
Proof.
  intros R X ipstr jsonsvcs txt two version vj x e ctx N A B C V U.
  destruct (JsonFlat.flat_encodes X ipstr jsonsvcs x e two version ctx) as [s E]. exists s. split; [exact E|].
  pose proof (told_iff X ipstr jsonsvcs two x e N A B R version vj ctx s V E) as T. split; [exact T|]. intros H.
  pose proof (told_writable X ipstr jsonsvcs two x e N A B R version vj ctx V H) as W.
  destruct (C35_record_is_json R X txt two version vj _ ctx C V U W) as (s' & E' & J & Q). assert (s' = s) by congruence. subst s'.
  rewrite (value_is X ipstr jsonsvcs txt two x e N R vj ctx) in J, Q. split; [|exact Q].
  intros v. split; [intros J'; exact (C35_one_value s v _ J' J)|intros ->; exact J].
Qed.
(** Lines tell events apart: from equal lines it follows that the events agree in type, times and result, in the identifiers of process, thread, user and group
    (unless they are Kubernetes events), in the amounts of flows and in the ports and protocol of network flows, whatever rules have fired. *)
Theorem C116_apart : forall (R : Type) X ipstr jsonsvcs txt two version vj x e (ctx : context (rule R)) x' e' (ctx' : context (rule R)) s,
  names_types X -> (forall z t, Forall SpecJson.plain_name (x_opflags X z t)) -> (forall z, Forall SpecJson.plain_name (x_openflags X z)) ->
  (forall s, SpecJson.clean s (txt s)) -> SpecJson.jtext version vj -> SpecJson.unique vj -> told x e -> told x' e' ->
  JsonModel.encode_json X two version (flatten ipstr jsonsvcs x e) ctx = Ok s -> JsonModel.encode_json X two version (flatten ipstr jsonsvcs x' e') ctx' = Ok s ->
  ev_type e = ev_type e' /\ ev_ts e = ev_ts e' /\ ev_endts e = ev_endts e' /\ ev_ret e = ev_ret e' /\
  (is_k8s e = false -> prz x e (fun p => hpid (p_oid p)) = prz x' e' (fun p => hpid (p_oid p)) /\ prz x e (fun p => createts (p_oid p)) = prz x' e' (fun p => createts (p_oid p)) /\
    ev_tid e = ev_tid e' /\ prz x e p_uid = prz x' e' p_uid /\ prz x e p_gid = prz x' e' p_gid) /\
  (is_flow e = true -> cnt e nf_rbytes fl_rbytes = cnt e' nf_rbytes fl_rbytes /\ cnt e nf_wbytes fl_wbytes = cnt e' nf_wbytes fl_wbytes /\
    cnt e nf_rops fl_rops = cnt e' nf_rops fl_rops /\ cnt e nf_wops fl_wops = cnt e' nf_wops fl_wops) /\
  (is_net e = true -> net e nf_sport = net e' nf_sport /\ net e nf_dport = net e' nf_dport /\ net e nf_proto = net e' nf_proto).
Proof.
  intros R X ipstr jsonsvcs txt two version vj x e ctx x' e' ctx' s N A B C V U T T' E E'.
  destruct (C116_line R X ipstr jsonsvcs txt two version vj x e ctx N A B C V U) as (s1 & E1 & _ & H1).
  destruct (C116_line R X ipstr jsonsvcs txt two version vj x' e' ctx' N A B C V U) as (s2 & E2 & _ & H2).
  assert (s1 = s) by congruence. assert (s2 = s) by congruence. subst s1 s2.
  assert (Q : event_value X txt two x e vj ctx = event_value X txt two x' e' vj ctx') by (apply (proj1 (H2 T')), (proj1 (H1 T)); reflexivity).
  destruct (apart X txt two R vj N C x e ctx x' e' ctx' Q) as (W & Q1 & Q2 & Q3 & Q4 & Q5 & Q6).
  split; [destruct e; destruct e'; cbn in W; try discriminate W; reflexivity|]. repeat (split; [assumption|]). split; [|split]; intros K.
  - exact (apart_proc X txt x e x' e' (Q4 K)).
  - exact (apart_flow e e' (Q5 K)).
  - exact (apart_net X txt two e e' (Q6 K)).
Qed.
(** The whole pipeline: in the file exported for a stream, every line is the one of an event of the stream, joined with the entities in force, and says so. *)
Theorem C116_file : forall P clk ipstr jsonsvcs hash buffer xstart ticks times X M typ, map_str X M "sf.type" = Ok typ ->
  names_types X -> (forall z t, Forall SpecJson.plain_name (x_opflags X z t)) -> (forall z, Forall SpecJson.plain_name (x_openflags X z)) ->
  forall pmatch ord n h conf d ah m rd fconf rs width cap r0 ls s,
  policies_in conf d -> language_is conf Falco -> monitor_is conf NoneType -> mode_is conf m ->
  benign ah -> faithful h d -> InitModel.init (sf_ops X M) pmatch ord n h conf = Ok (Some rd) ->
  (forall n, (clk n <= clk (S n))%Z) -> SpecReader.Sane false rs -> 0 < width ->
  let net := pipeline P clk ipstr jsonsvcs hash buffer xstart ticks times (engine_work X M ah rd) rs fconf width in
  steps net cap (init net r0) ls s -> wait_returns net s ->
  forall txt two version vj w wn old, (forall s, SpecJson.clean s (txt s)) -> SpecJson.jtext version vj -> (forall k, w k = WOk) -> (forall k, wn k = WOk) ->
  exists ds out texts dss os recs lns, Joined rs ds /\ Passed ipstr jsonsvcs hash fconf (events P ds) out /\
    texts_of h d texts /\ Forall2 text_reads texts dss /\
    Forall2 (fun fr o => disposed X M typ dss m (fr, ctx_new) o) out os /\ Permutation recs (concat os) /\
    Forall2 (fun r l => exists x e, In (x, e) (events P ds) /\ fst r = flatten ipstr jsonsvcs x e /\
      (told x e -> forall v, SpecJson.jtext l v <-> v = event_value X txt two x e vj (fired (snd r)))) recs lns /\
    made_of_lines (file_after (file_init true old)
      (process_all (encode_all (enc_json X two version)) (file_export w wn) 0 (batches_of (r_sent (s_rt s 3))))) lns.
Proof.
  intros P clk ipstr jsonsvcs hash buffer xstart ticks times X M typ Ht N A B pmatch ord n h conf d ah m rd fconf rs width cap r0 ls s Hd Hl Hmon Hm Hb Hf Hi Mono Sn W net H Wt
    txt two version vj w wn old Hc Hv Hw Hn.
  destruct (C88_json_file P clk ipstr jsonsvcs hash buffer xstart ticks times X M typ Ht pmatch ord n h conf d ah m rd fconf rs width cap r0 ls s Hd Hl Hmon Hm Hb Hf Hi Mono Sn W H Wt
    txt two version vj w wn old Hc Hv Hw Hn) as (ds & out & texts & dss & os & recs & lns & J & Pa & T & F & Fo & Pe & Fl & L).
  exists ds, out, texts, dss, os, recs, lns. repeat (split; [assumption|]). split; [|exact L].
  assert (Q : forall r, In r recs -> exists x e, In (x, e) (events P ds) /\ fst r = flatten ipstr jsonsvcs x e).
  { intros r Hr. apply (Permutation_in _ Pe), in_concat in Hr as (o & Ho & Hr).
    assert (Q : exists fr, In fr out /\ fst r = fr).
    { clear - Fo Ho Hr. induction Fo as [|fr o' out os Hd Fo IH]; [destruct Ho|]. destruct Ho as [->|Ho].
      - exists fr. split; [now left|]. exact (disposed_in _ _ _ _ _ _ _ _ Hd Hr).
      - destruct (IH Ho) as (f & ? & ?). exists f. split; [now right|assumption]. }
    destruct Q as (fr & Hfr & Er). destruct (passed_in _ _ _ _ _ _ _ Pa Hfr) as ([x e] & I & ->). exists x, e. auto. }
  clear - Q Fl N A B Hv. induction Fl as [|r l rs' ls' Hl Fl IH]; constructor.
  - destruct (Q r (or_introl eq_refl)) as (x & e & I & E). exists x, e. split; [exact I|]. split; [exact E|]. intros T v. unfold json_line in Hl. rewrite E in Hl.
    rewrite (Hl (told_writable X ipstr jsonsvcs two x e N A B _ version vj (fired (snd r)) Hv T) v).
    now rewrite (value_is X ipstr jsonsvcs txt two x e N unit vj (fired (snd r))).
  - apply IH. intros r' H'. apply Q. now right.
Qed.
Print Assumptions C116_line.
Print Assumptions C116_apart.
Print Assumptions C116_file.

(** A case: an event of a process in a container, told, with what the line says about it. *)
Lemma X0_types : names_types X0.
Proof.
  intros z t I. cbn [type_names map snd In] in *. cbn [X0 x_rectype]. unfold FILE_EVT, PROC_EVT, NET_FLOW, FILE_FLOW, K8S_EVT.
  destruct (Z.eqb_spec z 7%Z) as [->|N1]; [cbn; intuition (subst; try discriminate; try congruence; auto)|].
  destruct (Z.eqb_spec z 4%Z) as [->|N2]; [cbn; intuition (subst; try discriminate; try congruence; auto)|].
  destruct (Z.eqb_spec z 5%Z) as [->|N3]; [cbn; intuition (subst; try discriminate; try congruence; auto)|].
  destruct (Z.eqb_spec z 6%Z) as [->|N4]; [cbn; intuition (subst; try discriminate; try congruence; auto)|].
  destruct (Z.eqb_spec z 11%Z) as [->|N5]; [cbn; intuition (subst; try discriminate; try congruence; auto)|].
  cbn. intuition (subst; try discriminate; try congruence).
Qed.
Definition ex_ctx : fctx := mkFCtx (Some (mkFHdr 4 "node" "10.0.0.1" "/mnt/f")) None (Some (mkFCont "c1" " web " "nginx" "i1" 0 true)) (Some proc0)
  (Some [proc0; proc1]) (Some (mkFFile 0 1 102 "AB" "/etc/passwd" None)) None.
Definition ex_evt : fevent := EvFE (mkFE 5 17 3 0).
Example C116_case : names_types X0 /\ told ex_ctx ex_evt /\
  (forall txt, member "ts" (event_value X0 txt true ex_ctx ex_evt JNull (ctx_new : context (rule unit))) = Some (JNum 5) /\
    exists f, member "file" (event_value X0 txt true ex_ctx ex_evt JNull (ctx_new : context (rule unit))) = Some f /\ member "path" f = Some (JStr (txt "/etc/passwd"))) /\
  ~ told (mkFCtx None None None (Some proc0) None None None) ex_evt.
Proof.
  split; [exact X0_types|]. split; [split; [discriminate|exact I]|]. split.
  - intros txt. split; [reflexivity|]. eexists. split; reflexivity.
  - intros [H _]. apply H. reflexivity.
Qed.
