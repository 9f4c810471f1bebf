(** * Properties C32, C33, C39, C46, C62, C63: exporter loop, delivery, configuration, sets. *)
From Coq Require Import Lia Permutation.
From Verif Require Import GoBase GoFacts EngineModel ExportModel SpecExport ExportFacts ExportFacts2.
Open Scope Z_scope.

(** C32.  For every history of records, ticks and close: the batches handed to process(), put end to end, are
    the records received, in order, but for those still buffered; none is after close. *)
Theorem C32_no_loss_no_reordering :
  forall R buffer start (es : list (xevent R)), let s := x_run buffer start es in
  exists pending, concat (x_batches s) ++ pending = received es /\
    (In XClose es -> pending = []) /\ Z.of_nat (length pending) < Z.max 1 buffer.
Proof.
  intros R buffer start es s. destruct (batching buffer start es) as [H1 H2]. destruct (run_good buffer start es) as [G _]. fold s in H1, H2, G.
  exists (if x_open s then x_recs s else []). split; [exact H1|]. split.
  - intros I. rewrite (proj2 H2 I). reflexivity.
  - destruct (x_open s); [destruct (G eq_refl) as [<- L]; exact L|cbn; lia].
Qed.
Print Assumptions C32_no_loss_no_reordering.
(** Each batch holds at least one record and at most max(1, buffer). *)
Theorem C32_batch_sizes :
  forall R buffer start (es : list (xevent R)) b, In b (x_batches (x_run buffer start es)) ->
  (1 <= length b)%nat /\ Z.of_nat (length b) <= Z.max 1 buffer.
Proof. intros R buffer start es b I. exact (proj1 (Forall_forall _ _) (proj2 (run_good buffer start es)) b I). Qed.
Print Assumptions C32_batch_sizes.
(** With the default buffer (or 1) every record is handed over as it comes. *)
Theorem C32_unbuffered :
  forall R buffer start (es : list (xevent R)), buffer <= 1 ->
  x_batches (x_run buffer start es) = map (fun r => [r]) (received es).
Proof.
  intros R buffer start es B. destruct (C32_no_loss_no_reordering R buffer start es) as (pend & E & _ & L).
  assert (P : pend = []) by (destruct pend; [reflexivity|cbn [length] in L; lia]). subst pend. rewrite app_nil_r in E. rewrite <- E.
  pose proof (fun b => C32_batch_sizes R buffer start es b) as S. clear E L. revert S. generalize (x_batches (x_run buffer start es)).
  induction l as [|b l IH]; intros S; [reflexivity|]. destruct (S b (or_introl eq_refl)) as [S1 S2].
  destruct b as [|r [|r' b]]; cbn [length] in *; try lia. cbn [concat app map]. f_equal. apply IH. intros b' I. apply S. right; exact I.
Qed.
Print Assumptions C32_unbuffered.
Example C32_case : x_batches (x_run 2 0 [XRec 1%nat 1 1; XRec 2%nat 2 2; XRec 3%nat 3 3; XTick 1000000004 1000000005; XRec 4%nat 1000000006 1000000006; XClose; XRec 5%nat 9 9])
  = [[1; 2]; [3]; [4]]%nat.
Proof. vm_compute. reflexivity. Qed.

(** C62.  No record waits in the buffer for long: once a tick comes more than a second after a record was
    received, the record has been handed over. *)
Theorem C62_idle_flush :
  forall R buffer start (es1 es2 : list (xevent R)) r now don tick tdone,
  let es := es1 ++ [XRec r now don] ++ es2 ++ [XTick tick tdone] in
  ordered start es -> ~ In XClose es -> now + 1000000000 < tick ->
  nth_error (concat (x_batches (x_run buffer start es))) (length (received es1)) = Some r.
Proof. intros R buffer start es1 es2 r now don tick tdone. exact (idle buffer start es1 r now don es2 tick tdone). Qed.
Print Assumptions C62_idle_flush.
Example C62_case : let es := [XRec 1%nat 1 1] ++ [XRec 7%nat 5 5] ++ [XTick 900000000 900000000] ++ [XTick 1900000000 1900000001] in
  ordered 0 es /\ ~ In XClose es /\ x_batches (x_run 100 0 es) = [[1; 7]]%nat.
Proof. cbn [app ordered In]. split; [lia|]. split; [intuition discriminate|vm_compute; reflexivity]. Qed.
(** And a tick hands over what is buffered only if more than a second has passed since the last batch was
    handed over (by a tick or by a record filling the buffer), or since the start if there was none. *)
Theorem C62_only_when_idle :
  forall R buffer start (es1 es2 : list (xevent R)) e d tick tdone,
  (ordered start (es1 ++ [e] ++ es2 ++ [XTick tick tdone]) -> ((exists a, e = XTick a d) \/ exists r a, e = XRec r a d) ->
   x_batches (x_run buffer start (es1 ++ [e])) <> x_batches (x_run buffer start es1) ->
   x_batches (x_run buffer start (es1 ++ [e] ++ es2 ++ [XTick tick tdone])) <> x_batches (x_run buffer start (es1 ++ [e] ++ es2)) ->
   d + 1000000000 < tick) /\
  (ordered start (es1 ++ [XTick tick tdone]) ->
   x_batches (x_run buffer start (es1 ++ [XTick tick tdone])) <> x_batches (x_run buffer start es1) -> start + 1000000000 < tick).
Proof.
  intros R buffer start es1 es2 e d tick tdone. split.
  - intros O D. apply (not_early buffer start es1 es2 e d tick tdone O). destruct D as [(a & ->)|(r & a & ->)]; reflexivity.
  - exact (not_early_start buffer start es1 tick tdone).
Qed.
Print Assumptions C62_only_when_idle.
Example C62_only_case : let es := [XRec 1%nat 1 1] in
  ordered 0 (es ++ [XRec 2%nat 500000000 500000001] ++ [XRec 3%nat 500000002 500000002] ++ [XTick 1500000002 1500000003]) /\
  x_batches (x_run 2 0 (es ++ [XRec 2%nat 500000000 500000001])) = [[1; 2]]%nat /\
  x_batches (x_run 2 0 (es ++ [XRec 2%nat 500000000 500000001] ++ [XRec 3%nat 500000002 500000002] ++ [XTick 1500000002 1500000003])) = [[1; 2]; [3]]%nat.
Proof. cbn [app ordered]. split; [lia|]. split; vm_compute; reflexivity. Qed.

(** C33.  Over a transport that takes records one by one (syslog), and for any pattern of failures: what
    becomes of a batch depends on that batch only: nothing of it if it cannot be encoded, otherwise a first part,
    and all of it if none of its records is refused. *)
Theorem C33_each_batch :
  forall R (enc : R -> option edata) ok buffer start es n b, let bs := x_batches (x_run buffer start es) in
  nth_error bs n = Some b ->
  exists o, nth_error (process_all (encode_all enc) (syslog_export ok) 0 bs) n = Some o /\
            delivery enc syslog_text ok (length (concat (firstn n bs))) b o.
Proof.
  intros R enc ok buffer start es n b bs H. eexists. split; [exact (process_all_nth _ _ bs 0%nat n b H)|].
  apply process_delivery. destruct (C32_batch_sizes R buffer start es b (nth_error_In _ _ H)) as [L _]. destruct b; [cbn in L; lia|discriminate].
Qed.
Print Assumptions C33_each_batch.
(** Every record is delivered at most once, and in order. *)
Theorem C33_at_most_once_in_order :
  forall R (enc : R -> option edata) ok buffer start es,
  sublist (map Some (delivered (process_all (encode_all enc) (syslog_export ok) 0 (x_batches (x_run buffer start es)))))
          (map (fun r => match enc r with Some d => syslog_text d | None => None end) (received es)).
Proof.
  intros R enc ok buffer start es. destruct (C32_no_loss_no_reordering R buffer start es) as (pend & E & _). rewrite <- E, map_app.
  rewrite <- (app_nil_r (map Some _)). apply sublist_app; [|apply sublist_nil]. apply delivered_sublist.
  apply Forall_forall. intros b I. destruct (C32_batch_sizes R buffer start es b I) as [L _]. destruct b; [cbn in L; lia|discriminate].
Qed.
Print Assumptions C33_at_most_once_in_order.
(** Batches are not the unit of loss: a refused record leaves the first part of its batch delivered. *)
Theorem C33_whole_batches_refuted :
  exists (enc : nat -> option edata) ok buffer start es,
  x_batches (x_run buffer start es) = [[1; 2; 3]; [4]]%nat /\
  process_all (encode_all enc) (syslog_export ok) 0 (x_batches (x_run buffer start es)) = [Some (["1"], true); Some (["4"], false)]%string.
Proof.
  exists (fun n => Some (DBytes (format_int (Z.of_nat n)))), (fun i => negb (Nat.eqb i 1)), 3, 0,
    [XRec 1%nat 0 0; XRec 2%nat 0 0; XRec 3%nat 0 0; XRec 4%nat 0 0; XClose]. split; vm_compute; reflexivity.
Qed.
Print Assumptions C33_whole_batches_refuted.
(** Over the text file a write cut short joins its fragment to the next record's line: that record, of
    another batch, is lost as well. *)
Theorem C33_file_other_batches_refuted :
  exists (enc : nat -> option edata) w wn buffer start es,
  x_batches (x_run buffer start es) = [[1]; [2]]%nat /\
  split_on (ascii_of_nat 10) (file_after "" (process_all (encode_all enc) (file_export w wn) 0 (x_batches (x_run buffer start es)))) = ["recorrecord2"; ""]%string.
Proof.
  exists (fun n => Some (DBytes ("record" ++ format_int (Z.of_nat n)))), (fun i => if Nat.eqb i 0 then WShort 5 else WOk), (fun _ => WOk), 0, 0,
    [XRec 1%nat 0 0; XRec 2%nat 0 0; XClose]. split; vm_compute; reflexivity.
Qed.
Print Assumptions C33_file_other_batches_refuted.
(** Over Kafka every record encoded as bytes and accepted by the producer is produced, whatever happens to the others. *)
Theorem C33_kafka :
  forall ok ds i, kafka_export ok i ds =
  flat_map (fun kd => match snd kd with DBytes s => if ok (fst kd) then [s] else [] | DObj _ _ _ => [] end) (combine (seq i (length ds)) ds).
Proof. exact kafka_items. Qed.
Print Assumptions C33_kafka.
(** Over Elastic the same as over syslog, for the documents handed to the bulk indexer. *)
Theorem C33_elastic :
  forall R (enc : R -> option edata) add buffer start es n b, let bs := x_batches (x_run buffer start es) in
  nth_error bs n = Some b ->
  exists o, nth_error (process_all (encode_all enc) (es_add add) 0 bs) n = Some o /\
            delivery enc es_text add (length (concat (firstn n bs))) b o.
Proof.
  intros R enc ok buffer start es n b bs H. eexists. split; [exact (process_all_nth _ _ bs 0%nat n b H)|].
  apply es_delivery. destruct (C32_batch_sizes R buffer start es b (nth_error_In _ _ H)) as [L _]. destruct b; [cbn in L; lia|discriminate].
Qed.
Print Assumptions C33_elastic.
Example C33_elastic_case : let d m := DObj (Some m) "" true in
  process_all (encode_all (fun n : nat => Some (d (format_int (Z.of_nat n))))) (es_add (fun i => negb (Nat.eqb i 2))) 0
    (x_batches (x_run 2 0 [XRec 1%nat 0 0; XRec 2%nat 0 0; XRec 3%nat 0 0; XRec 4%nat 0 0; XRec 5%nat 0 0; XClose])) =
  [Some (["1"; "2"], false); Some ([], true); Some (["5"], false)]%string.
Proof. vm_compute. reflexivity. Qed.
(** With the OpenTelemetry encoder a record that cannot be encoded costs only itself: with a producer that
    takes everything, the texts of all the others are produced, in order. *)
Theorem C33_otel_skips :
  forall R (enc : R -> option edata) ok buffer start es, (forall k, ok k = true) -> In XClose es ->
  delivered (process_all (encode_skip enc) (fun i ds => (kafka_export ok i ds, false)) 0 (x_batches (x_run buffer start es))) =
  flat_map (fun r => match enc r with Some (DBytes s) => [s] | _ => [] end) (received es).
Proof.
  intros R enc ok buffer start es K C. destruct (C32_no_loss_no_reordering R buffer start es) as (pend & P & Q & _).
  rewrite (Q C), app_nil_r in P. rewrite <- P. apply skip_delivered, K.
Qed.
Print Assumptions C33_otel_skips.
Example C33_otel_case :
  delivered (process_all (encode_skip (fun n : nat => if Nat.eqb n 2 then None else Some (DBytes (format_int (Z.of_nat n))))) (fun i ds => (kafka_export (fun _ => true) i ds, false)) 0
    (x_batches (x_run 2 0 [XRec 1%nat 0 0; XRec 2%nat 0 0; XRec 3%nat 0 0; XClose]))) = ["1"; "3"]%string.
Proof. vm_compute. reflexivity. Qed.

(** C63.  The text file (and the terminal): without write errors it holds, after what it held when opened,
    exactly one line per record received, in order. *)
Theorem C63_file_lines :
  forall R (enc : R -> option edata) w wn buffer start es ds old,
  (forall k, w k = WOk) -> (forall k, wn k = WOk) -> In XClose es -> encode_all enc (received es) = Some ds -> Forall one_line ds ->
  split_on (ascii_of_nat 10) (file_after (file_init true old) (process_all (encode_all enc) (file_export w wn) 0 (x_batches (x_run buffer start es))))
  = map (fun d => match d with DBytes s => s | DObj (Some m) _ _ => m | DObj None p _ => p end) ds ++ [""%string].
Proof.
  intros R enc w wn buffer start es ds old W N C E L. destruct (C32_no_loss_no_reordering R buffer start es) as (pend & P & Q & _).
  rewrite (Q C), app_nil_r in P.
  rewrite (file_after_ok enc w wn W N _ _ ds).
  - apply lines_split, L.
  - apply Forall_forall. intros b I. destruct (C32_batch_sizes R buffer start es b I) as [X _]. destruct b; [cbn in X; lia|discriminate].
  - rewrite P. exact E.
Qed.
Print Assumptions C63_file_lines.
Theorem C63_terminal_lines :
  forall ds, Forall one_line ds ->
  split_on (ascii_of_nat 10) (terminal_export ds) = map (fun d => match d with DBytes s => s | DObj (Some m) _ _ => m | DObj None p _ => p end) ds ++ [""%string].
Proof. intros ds L. rewrite terminal_lines. apply lines_split, L. Qed.
Print Assumptions C63_terminal_lines.
Example C63_case : Forall one_line [DBytes "{""a"":1}"; DObj (Some "{}") "" true] /\
  file_after "" (process_all (encode_all (fun d => Some d)) (file_export (fun _ => WOk) (fun _ => WOk)) 0 [[DBytes "{""a"":1}"; DObj (Some "{}") "" true]])
  = ("{""a"":1}" ++ nl ++ "{}" ++ nl)%string.
Proof.
  split; [|reflexivity]. assert (H : forall s, (forall c, In c (list_ascii_of_string s) -> c <> ascii_of_nat 10) -> forall a b, s <> (a ++ nl ++ b)%string).
  { intros s H a b ->. apply (H (ascii_of_nat 10)); [|reflexivity]. clear. induction a as [|c a IH]; cbn [append list_ascii_of_string In]; [left; reflexivity|right; exact IH]. }
  repeat constructor; unfold one_line; apply H; intros c I; cbn in I; repeat destruct I as [<-|I]; try discriminate; contradiction.
Qed.

(** C39.  The configuration: each option given as text is used, those not given (or not text) have their
    defaults, and words not known mean the default (terminal, JSON, ...). *)
Theorem C39_values : forall o c cfg, create_xconfig o c = Some cfg -> configured o c cfg.
Proof. exact config_values. Qed.
Print Assumptions C39_values.
(** Exactly when a configuration is accepted. *)
Theorem C39_accepted_iff : forall o c, (exists cfg, create_xconfig o c = Some cfg) <-> acceptable o c.
Proof. exact config_accepted. Qed.
Print Assumptions C39_accepted_iff.
(** Whatever the transport, a configuration without Kafka options is refused. *)
Theorem C39_own_transport_refuted :
  forall b o tinit c, ~ kafka_given c -> x_init b o tinit c = Ok None.
Proof.
  intros b o tinit c H. unfold x_init. destruct (create_xconfig o c) as [cfg|] eqn:E; [|reflexivity]. exfalso. apply H.
  assert (A : acceptable o c) by (apply config_accepted; eauto). unfold acceptable in A. tauto.
Qed.
Print Assumptions C39_own_transport_refuted.
(** The exporter stage of resources/pipelines/pipeline.local.json. *)
Definition local_stage : xconf := [("processor", XStr "exporter"); ("in", XStr "evt eventchan"); ("export", XStr "syslog"); ("format", XStr "json");
  ("syslog.proto", XStr "udp"); ("syslog.tag", XStr "sysflow"); ("syslog.host", XStr "localhost"); ("syslog.port", XStr "514")]%string.
Example C39_local_stage : forall b o tinit, x_init b o tinit local_stage = Ok None.
Proof. intros. apply C39_own_transport_refuted. intros (ks & t & H & _). discriminate H. Qed.
(** The exporter starts exactly when the configuration is accepted, the build has the encoder and the transport,
    the buffer size can be allocated and the transport comes up; a buffer size that cannot be is a crash. *)
Theorem C39_init :
  forall b o tinit c cfg, x_init b o tinit c = Ok (Some cfg) <->
  create_xconfig o c = Some cfg /\
  (0 <= xc_buffer cfg <= 17592186044416) /\
  (match b with
   | FlatBuild => (xc_format cfg = JSONFormat \/ xc_format cfg = ECSFormat) /\ xc_transport cfg <> KafkaTransport
   | OtelBuild => xc_format cfg = OtelFormat /\ xc_transport cfg <> SyslogTransport /\ xc_transport cfg <> ESTransport
   end) /\ tinit cfg = true.
Proof.
  intros b o tinit c cfg. unfold x_init. destruct (create_xconfig o c) as [g|]; [|split; [discriminate|intros (H & _); discriminate]].
  unfold cap_ok. destruct (has_codec b (xc_format g)) eqn:C.
  2:{ split; [discriminate|]. intros ([= ->] & _ & H & _). destruct b, (xc_format cfg); cbn in C; try discriminate; intuition congruence. }
  destruct (Z.leb_spec 0 (xc_buffer g)); cbn [andb].
  2:{ split; [discriminate|]. intros ([= ->] & H1 & _). lia. }
  destruct (Z.leb_spec (xc_buffer g * 16) 281474976710656).
  2:{ split; [discriminate|]. intros ([= ->] & H1 & _). lia. }
  destruct (has_protocol b (xc_transport g)) eqn:P.
  2:{ split; [discriminate|]. intros ([= ->] & _ & H1 & _). destruct b, (xc_transport cfg); cbn in P; try discriminate; intuition congruence. }
  destruct (tinit g) eqn:T; [|split; [discriminate|intros ([= ->] & _ & _ & H1); congruence]].
  split.
  - intros [= <-]. split; [reflexivity|]. split; [lia|]. split; [|exact T].
    destruct b, (xc_format g), (xc_transport g); cbn in C, P; try discriminate; repeat split; try discriminate; auto.
  - intros ([= ->] & _). reflexivity.
Qed.
Print Assumptions C39_init.
Theorem C39_negative_buffer_crashes :
  forall b o tinit c cfg, create_xconfig o c = Some cfg -> has_codec b (xc_format cfg) = true -> xc_buffer cfg < 0 -> x_init b o tinit c = Panic.
Proof.
  intros b o tinit c cfg H C B. unfold x_init, cap_ok. rewrite H, C. destruct (Z.leb_spec 0 (xc_buffer cfg)); [lia|reflexivity].
Qed.
Print Assumptions C39_negative_buffer_crashes.
Definition kafka_part : xconf := [("kafka.config", XMap ["bootstrap.servers"]); ("kafka.topic", XStr "t")]%string.
Definition o0 : outside := mkOutside (fun s => if seqb s "1s" then Some 1000000000 else None) (fun _ => true) (fun _ _ k => Some k).
Example C39_case_accepted : exists cfg, x_init FlatBuild o0 (fun _ => true) (("buffer", XStr "100") :: ("export", XStr "es") :: ("format", XStr "ecs") ::
   ("vault.secrets", XStr "true") :: ("es.addresses", XStr "a,b") :: kafka_part)%string = Ok (Some cfg) /\ xc_buffer cfg = 100 /\ xc_addresses cfg = ["a"; "b"]%string
   /\ xc_user cfg = "es.username"%string /\ xc_port cfg = 514.
Proof. eexists. split; [vm_compute; reflexivity|]. repeat split. Qed.
Example C39_case_crash : x_init FlatBuild o0 (fun _ => true) (("buffer", XStr "-1") :: kafka_part)%string = Panic.
Proof. vm_compute. reflexivity. Qed.
(** The es transport together with the JSON format: accepted, but no record of any batch is ever indexed. *)
Theorem C39_es_json_exports_nothing_refuted :
  (exists cfg, x_init FlatBuild o0 (fun _ => true) (("export", XStr "es") :: ("format", XStr "json") :: kafka_part)%string = Ok (Some cfg)) /\
  forall R (enc : R -> option edata) add buffer start es o, (forall r d, enc r = Some d -> exists s, d = DBytes s) ->
  In o (process_all (encode_all enc) (es_add add) 0 (x_batches (x_run buffer start es))) -> o = None \/ o = Some ([], true).
Proof.
  split; [eexists; vm_compute; reflexivity|]. intros R enc add buffer start es o J I. revert I. generalize 0%nat.
  induction (x_batches (x_run buffer start es)) as [|b bs IH]; intros i I; cbn [process_all In] in I; [contradiction|].
  destruct I as [<-|I]; [|exact (IH _ I)]. unfold process. destruct (encode_all enc b) as [[|d ds]|] eqn:E; auto.
  right. pose proof (encode_all_some _ _ _ E) as F. inversion F as [|r0 d0 b0 ds0 E0 F0]; subst. destruct (J _ _ E0) as (s & ->). reflexivity.
Qed.
Print Assumptions C39_es_json_exports_nothing_refuted.

(** C46.  After any operations (most recent first) an element is in the set iff its last operation added
    it; the size is the number of such elements. *)
Theorem C46_membership :
  forall ops v, set_contains (fold_right (fun o s => set_apply s o) set_new ops) v = true <-> member ops v.
Proof. intros ops v. rewrite contains_in. apply set_member. Qed.
Print Assumptions C46_membership.
Theorem C46_size :
  forall ops l, NoDup l -> (forall v, In v l <-> member ops v) -> set_len (fold_right (fun o s => set_apply s o) set_new ops) = length l.
Proof.
  intros ops l N H. apply Permutation_length, NoDup_Permutation; [apply set_nodup|exact N|]. intros v. rewrite H. apply set_member.
Qed.
Print Assumptions C46_size.
(** Subset, in whatever order the elements are visited. *)
Theorem C46_subset :
  forall ops ops' order, Permutation order (fold_right (fun o s => set_apply s o) set_new ops) ->
  (set_subset order (fold_right (fun o s => set_apply s o) set_new ops') = true <-> forall v, member ops v -> member ops' v).
Proof.
  intros ops ops' order P. rewrite subset_forall. split; intros H v I.
  - apply set_member. apply H. apply (Permutation_in _ (Permutation_sym P)). apply set_member, I.
  - apply set_member. apply H. apply set_member. exact (Permutation_in _ P I).
Qed.
Print Assumptions C46_subset.
Example C46_case : member [SRemove "a"; SAdd "b"; SAdd "a"]%string "b" /\ ~ member [SRemove "a"; SAdd "b"; SAdd "a"]%string "a".
Proof. cbn. split; [split; [discriminate|left; reflexivity]|intros [H _]; apply H; reflexivity]. Qed.
