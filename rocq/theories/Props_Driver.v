(** * Properties C70-C77: data sources, shutdown requests, start of the program. *)
From Coq Require Import Lia.
From Verif Require Import GoBase GoFacts PluginModel DriverModel NetModel SpecNet SpecDriver DriverFacts.

(** C70.  While it is not stopped, the file driver sends the records of all its files, in the order
    of the directory and of each file (a file is abandoned at the first datum that cannot be read),
    then closes the channel once and waits for the pipeline. *)
Theorem C70_all_records :
  forall (R : Type) types s root cfg flag stat (open : string -> file_res R) path c p fs rss,
  names_output types s root cfg c -> ch_type c = "sysflowchan" -> (forall k, flag k = true) ->
  names_input cfg path p -> inputs stat p fs -> Forall2 (file_records open) fs rss ->
  file_run types s root cfg flag stat open path = (Some c, map ASend (concat rss) ++ [AClose; AWait], ORet).
Proof. exact @all_records. Qed.
Print Assumptions C70_all_records.
(** Without input it ends with an error and sends nothing; a channel of another type is not written to. *)
Theorem C70_refused :
  forall (R : Type) types s root cfg flag stat (open : string -> file_res R) path c p,
  names_output types s root cfg c -> names_input cfg path p ->
  (ch_type c = "sysflowchan" -> stat p = StNotExist \/ stat p = StDir None \/ stat p = StDir (Some []) ->
   file_run types s root cfg flag stat open path = (Some c, [], OErr)) /\
  (ch_type c <> "sysflowchan" -> file_run types s root cfg flag stat open path = (None, [], OPanic)).
Proof. exact @no_records. Qed.
Print Assumptions C70_refused.
(** When it is stopped it has sent an initial part of them (no more than there were readings of the
    flag before), and it closes the channel and waits, or ends as it would have without the stop. *)
Theorem C70_stopped :
  forall (R : Type) types s root cfg flag stat (open : string -> file_res R) path c a o c1 a1 o1,
  monotone flag ->
  file_run types s root cfg flag stat open path = (c, a, o) ->
  file_run types s root cfg (fun _ => true) stat open path = (c1, a1, o1) ->
  prefix (sends a) (sends a1) /\ (forall k, flag k = false -> length (sends a) <= k) /\
  ((o = ORet /\ a = map ASend (sends a) ++ [AClose; AWait]) \/ (a = a1 /\ o = o1 /\ o <> ORet)).
Proof.
  intros R types s root cfg flag stat open path c a o c1 a1 o1 M. unfold file_run.
  destruct (out_chan types s root cfg) as [[ch|]| | |].
  - destruct (run_path flag stat open (input_path cfg path)) as [a' o'] eqn:E. intros [= <- <- <-].
    pose proof (run_stop flag stat open _ a' o' M E) as H.
    destruct (run_path (fun _ => true) stat open (input_path cfg path)) as [a2 o2]. intros [= <- <- <-].
    destruct H as (P & K & [[-> Q]|[(-> & -> & ->)|(-> & -> & -> & ->)]]); repeat split; auto; right; repeat split; auto; discriminate.
  - intros [= <- <- <-] [= <- <- <-]. repeat split; [exists []; reflexivity | cbn; lia | right; repeat split; auto; discriminate].
  - intros [= <- <- <-] [= <- <- <-]. repeat split; [exists []; reflexivity | cbn; lia | right; repeat split; auto; discriminate].
  - intros [= <- <- <-] [= <- <- <-]. repeat split; [exists []; reflexivity | cbn; lia | right; repeat split; auto; discriminate].
  - intros [= <- <- <-] [= <- <- <-]. repeat split; [exists []; reflexivity | cbn; lia | right; repeat split; auto; discriminate].
Qed.
Print Assumptions C70_stopped.
(** In the pipeline: when the driver's wait returns, the stage reading the driver's channel has
    received exactly the records the driver sent, in order, under every schedule. *)
Theorem C70_pipeline :
  forall (R M St : Type) (inj : R -> M) (st0 : St) rest cap r0 ls s c a j g,
  closes a = true ->
  let net := driver_stage inj c st0 a :: rest in
  well_formed net -> steps net cap (init net r0) ls s -> wait_returns net s ->
  nth_error net j = Some g -> input g = Some c ->
  r_recv (s_rt s j) = map inj (sends a).
Proof. intros R M St. exact (@delivered R M St). Qed.
Print Assumptions C70_pipeline.

(** A directory of three files, the second with an unreadable datum, read to the end and stopped
    after three readings of the flag. *)
Definition ex_open (f : string) : file_res nat :=
  if seqb f "/d/a" then FData [Some 1; Some 2] else if seqb f "/d/b" then FData [Some 3; None; Some 4]
  else if seqb f "/d/c" then FData [Some 5] else if seqb f "/d/sub" then FReaderErr else FOpenErr.
Definition ex_stat (es : list string) (f : string) : stat_res := if seqb f "/d" then StDir (Some es) else StNotExist.
Definition ex_root : option chan := Some (mkChan 0 "sysflowchan").
Example ex_file_run :
  file_run [] empty_cache ex_root None (fun _ => true) (ex_stat ["a"; "b"; "c"]) ex_open "/d"
    = (ex_root, [ASend 1; ASend 2; ASend 3; ASend 5; AClose; AWait], ORet).
Proof. reflexivity. Qed.
Example ex_file_names : names_output [] empty_cache ex_root None (mkChan 0 "sysflowchan") /\ names_input None "/d" "/d" /\ inputs (ex_stat ["a"; "b"; "c"]) "/d" ["/d/a"; "/d/b"; "/d/c"] /\
  names_input (Some [("driver", VStr "file"); ("path", VStr "/d")]) "/other" "/d".
Proof. repeat split; try (constructor; reflexivity). exact (in_dir (ex_stat ["a"; "b"; "c"]) "/d" ["a"; "b"; "c"] eq_refl ltac:(discriminate)). Qed.
Example ex_file_hyps : Forall2 (file_records ex_open) ["/d/a"; "/d/b"; "/d/c"] [[1; 2]; [3]; [5]].
Proof. repeat constructor; eexists; (split; [reflexivity|]); repeat constructor. Qed.
Example ex_file_stopped :
  file_run [] empty_cache ex_root None (fun n => n <? 1) (ex_stat ["a"; "b"; "c"]) ex_open "/d" = (ex_root, [ASend 1; AClose; AWait], ORet).
Proof. reflexivity. Qed.
(** The path of the configuration replaces the one of the command line. *)
Example ex_file_conf : input_path (Some [("driver", VStr "file"); ("path", VStr "/d")]) "/other" = "/d".
Proof. reflexivity. Qed.

(** C71.  An input file that cannot be opened or is not a trace ends the driver with an error, after
    the records of the files before it were handed to the pipeline: the channel is not closed and
    nothing waits for those records. *)
Theorem C71_failure_exact :
  forall (R : Type) types s root cfg flag stat (open : string -> file_res R) path c p fs rss f fs',
  names_output types s root cfg c -> ch_type c = "sysflowchan" -> (forall k, flag k = true) ->
  names_input cfg path p -> inputs stat p (fs ++ f :: fs') -> Forall2 (file_records open) fs rss ->
  open f = FOpenErr \/ open f = FReaderErr ->
  file_run types s root cfg flag stat open path = (Some c, map ASend (concat rss), OErr).
Proof. exact @failure_exact. Qed.
Print Assumptions C71_failure_exact.
(** So records already read can be lost: for every readable first files, some schedule ends the
    driver's run with nothing received by the next stage, whatever that stage is. *)
Theorem C71_no_loss_refuted :
  forall (R M St : Type) (inj : R -> M) (st0 : St) (g : @NetModel.stage M St) cap r0 types s root cfg flag stat (open : string -> file_res R) path c p fs rss f fs',
  names_output types s root cfg c -> ch_type c = "sysflowchan" -> (forall k, flag k = true) ->
  names_input cfg path p -> inputs stat p (fs ++ f :: fs') -> Forall2 (file_records open) fs rss ->
  open f = FOpenErr \/ open f = FReaderErr ->
  g_driver g = false -> length (concat rss) <= cap ->
  exists a, file_run types s root cfg flag stat open path = (Some c, a, OErr) /\ sends a = concat rss /\ waits a = false /\
  let net := [driver_stage inj (ch_id c) st0 a; g] in
  exists ls s', steps net cap (init net r0) ls s' /\ s_crash s' = false /\
    r_infl (s_rt s' 0) = [] /\ r_sent (s_rt s' 0) = map (fun r => (Some (ch_id c), inj r)) (concat rss) /\ r_recv (s_rt s' 1) = [].
Proof.
  intros R M St inj st0 g cap r0 types s root cfg flag stat open path c p fs rss f fs' O OT T NI G F B GD LE.
  exists (map ASend (concat rss)). repeat split.
  - eapply C71_failure_exact; eauto.
  - apply sends_map.
  - unfold waits. clear. induction (concat rss); cbn; auto.
  - destruct (undelivered inj st0 g cap r0 (ch_id c) (map ASend (concat rss)) GD) as (ls & s' & A & B1 & C & D & E & _).
    + rewrite sends_map. exact LE.
    + exists ls, s'. rewrite sends_map in D. auto.
Qed.
Print Assumptions C71_no_loss_refuted.
(** A subdirectory is enough; so is an empty directory (an error before any record). *)
Example ex_subdir :
  file_run [] empty_cache ex_root None (fun _ => true) (ex_stat ["a"; "sub"; "c"]) ex_open "/d" = (ex_root, [ASend 1; ASend 2], OErr).
Proof. reflexivity. Qed.
Example ex_emptydir :
  file_run [] empty_cache ex_root None (fun _ => true) (ex_stat []) ex_open "/d" = (ex_root, [], OErr).
Proof. reflexivity. Qed.

(** C72.  The socket driver sends one record for every message that fits its buffer, in order; the
    record is decoded from a buffer whose bytes are those of the last message long enough to have
    such a byte, on the same connection. *)
Theorem C72_delivery :
  forall (R : Type) (eval : string -> R) size es s a,
  srun eval size (Accepting true) es = Some (s, a) -> Delivers eval size [] es (sends a).
Proof. intros R eval size es s a H. exact (delivers eval size es (Accepting true) [] s a I H). Qed.
Print Assumptions C72_delivery.
(** If decoding does not look behind the end of a message, each message is delivered as what it
    says.  The channel is closed once, at the end, followed by the wait. *)
Theorem C72_self_delimiting :
  forall (R : Type) (eval : string -> R) size dec es s a,
  (forall m rest, slen m <= size -> eval (m ++ rest)%string = dec m) ->
  srun eval size (Accepting true) es = Some (s, a) -> sends a = map dec (messages size es).
Proof. intros R eval size dec es s a H. exact (delivers_det eval size dec H es (Accepting true) s a). Qed.
Print Assumptions C72_self_delimiting.
Theorem C72_close :
  forall (R : Type) (eval : string -> R) size es s a,
  srun eval size (Accepting true) es = Some (s, a) ->
  (s = Finished /\ a = map ASend (sends a) ++ [AClose; AWait]) \/ (s <> Finished /\ a = map ASend (sends a)).
Proof. intros R eval size es s a. apply ends. discriminate. Qed.
Print Assumptions C72_close.
(** Otherwise not: with a length-prefixed format, a message cut short is completed with the bytes
    of the message before it and delivered as if it had been complete; a message alone that cannot
    be decoded is delivered too, as whatever the decoder left. *)
Definition lp_eval (b : string) : option string :=
  match b with
  | String n r => if Ascii.nat_of_ascii n <=? slen r then Some (stake (Ascii.nat_of_ascii n) r) else None
  | EmptyString => None
  end.
Theorem C72_own_bytes_refuted :
  exists es1 es2 s1 s2 a1 a2 m,
  srun lp_eval 8 (Accepting true) (es1 ++ [Message m]) = Some (s1, a1) /\
  srun lp_eval 8 (Accepting true) (es2 ++ [Message m]) = Some (s2, a2) /\
  last (sends a1) None <> last (sends a2) None.
Proof.
  exists [Connect], [Connect; Message (String "004" "abcd")].
  do 4 eexists. exists (String "004" "x"). repeat split; vm_compute; discriminate.
Qed.
Print Assumptions C72_own_bytes_refuted.
Example ex_stream :
  srun lp_eval 6 (Accepting true) [Connect; Message (String "002" "ab"); Message (String "003" "cde"); ReadFails; Connect; Message "0123456789"; Connect; Message (String "001" "z"); Stop]
  = Some (Finished, [ASend (Some "ab"); ASend (Some "cde"); ASend (Some "z"); AClose; AWait]).
Proof. reflexivity. Qed.

(** The driver: it runs on the channel it is configured with, from the moment it listens, and returns
    without error when it has been stopped; it refuses to run, having sent nothing, without a channel or
    when it cannot listen. *)
Theorem C72_run :
  forall (R : Type) (eval : string -> R) size types s root cfg c es, names_output types s root cfg c -> ch_type c = "sysflowchan" ->
  (forall ch a o, stream_run eval size types s root cfg true es = Some (ch, a, o) <->
    ch = Some c /\ exists st, srun eval size (Accepting true) es = Some (st, a) /\ (st = Finished /\ o = ORet \/ st <> Finished /\ o = OBlocked)) /\
  stream_run eval size types s root cfg false es = Some (Some c, [], OErr).
Proof.
  intros R eval size types s root cfg c es N T. pose proof (output_named _ _ _ _ _ N T) as O.
  unfold stream_run. rewrite O. split; [|reflexivity]. intros ch a o. destruct (srun eval size (Accepting true) es) as [[st b]|].
  - split.
    + intros H. destruct st; injection H as <- <- <-; (split; [reflexivity|]); eexists; (split; [reflexivity|]); [right|right|left]; (split; [discriminate || reflexivity|reflexivity]).
    + intros (-> & st' & [= <- <-] & [[-> ->]|[N' ->]]); [reflexivity|]. destruct st; [reflexivity|reflexivity|contradiction].
  - split; [discriminate|]. intros (_ & st & H & _). discriminate.
Qed.
Print Assumptions C72_run.
Theorem C72_no_channel :
  forall (R : Type) (eval : string -> R) size types s root cfg setup es,
  ((exists d, cfg = Some d /\ (forall v, mget "out" d <> Some (VStr v))) -> stream_run eval size types s root cfg setup es = Some (None, [], OErr)) /\
  (forall c, names_output types s root cfg c -> ch_type c <> "sysflowchan" -> stream_run eval size types s root cfg setup es = Some (None, [], OPanic)).
Proof.
  intros R eval size types s root cfg setup es. split.
  - intros (d & -> & N). unfold stream_run, out_chan. change OutChanConfig with "out". destruct (mget "out" d) as [[v| |]|]; try reflexivity. now destruct (N v).
  - intros c N T. unfold stream_run. rewrite (output_other _ _ _ _ _ N T). reflexivity.
Qed.
Print Assumptions C72_no_channel.
(** A connection that breaks, or on which a message does not fit the buffer, is given up; the driver accepts the next one and
    goes on as if it had just been started, nothing of the old connection left. *)
Theorem C72_reconnect :
  forall (R : Type) (eval : string -> R) size es b a bad es2 s2 a2,
  srun eval size (Accepting true) es = Some (Reading b, a) ->
  bad = ReadFails \/ (exists m, bad = Message m /\ size < slen m) ->
  srun eval size (Accepting true) es2 = Some (s2, a2) ->
  srun eval size (Accepting true) (es ++ bad :: es2) = Some (s2, a ++ a2).
Proof. exact @reconnect. Qed.
Print Assumptions C72_reconnect.

(** C73.  A stop request.  The socket driver that is reading stops at once, closes and waits. *)
Theorem C73_socket_reading :
  forall (R : Type) (eval : string -> R) size es b a,
  srun eval size (Accepting true) es = Some (Reading b, a) ->
  srun eval size (Accepting true) (es ++ [Stop]) = Some (Finished, a ++ [AClose; AWait]).
Proof. intros R eval size es b a H. rewrite srun_app, H. reflexivity. Qed.
Print Assumptions C73_socket_reading.
(** One that is waiting for a connection goes on waiting until somebody connects. *)
Theorem C73_socket_accepting_refuted :
  forall (R : Type) (eval : string -> R) size es r a es2 s2 a2,
  srun eval size (Accepting true) es = Some (Accepting r, a) ->
  (forall e, In e es2 -> e <> Connect /\ e <> AcceptFails) ->
  srun eval size (Accepting true) (es ++ Stop :: es2) = Some (s2, a2) ->
  s2 = Accepting false /\ a2 = a.
Proof.
  intros R eval size es r a es2 s2 a2 H N. rewrite srun_app, H. cbn [srun].
  assert (ST : sstep eval size (Accepting r) Stop = Some (Accepting false, [])) by (destruct r; reflexivity). rewrite ST.
  destruct (srun eval size (Accepting false) es2) as [[p q]|] eqn:E; [|discriminate].
  destruct (accept_stuck eval size es2 N p q E) as [-> ->]. cbn. intros [= <- <-]. rewrite app_nil_r. auto.
Qed.
Print Assumptions C73_socket_accepting_refuted.
Example ex_stop_accepting : srun lp_eval 6 (Accepting true) [Connect; ReadFails; Stop] = Some (Accepting false, []).
Proof. reflexivity. Qed.
(** The Kafka driver ignores it. *)
Theorem C73_kafka_refuted :
  forall (R : Type) (parse : string -> option (list R)) root es1 es2,
  kafka_run parse root (es1 ++ KStop :: es2) = kafka_run parse root (es1 ++ es2).
Proof. intros R parse root es1 es2. unfold kafka_run. destruct root as [c|]; [|reflexivity]. rewrite kloop_stop. reflexivity. Qed.
Print Assumptions C73_kafka_refuted.

(** C74.  The Kafka driver sends the logs of all messages, in order, until a read fails or a message
    cannot be parsed. *)
Theorem C74_delivery :
  forall (R : Type) (parse : string -> option (list R)) c ms rss bad,
  seqb (ch_type c) otel_chan = true -> Forall2 (fun m rs => parse m = Some rs) ms rss ->
  (bad = KReadErr \/ exists m, bad = KMsg m /\ parse m = None) ->
  forall es, kafka_run parse (Some c) (map KMsg ms ++ bad :: es) = (map ASend (concat rss) ++ [AClose], OErr) /\
             kafka_run parse (Some c) (map KMsg ms) = (map ASend (concat rss), OBlocked).
Proof.
  intros R parse c ms rss bad TY F B es. unfold kafka_run. rewrite TY.
  rewrite (kloop_all parse ms rss F). rewrite <- (app_nil_r (map KMsg ms)), (kloop_all parse ms rss F []). cbn. rewrite app_nil_r. split; [|reflexivity].
  destruct B as [-> | (m & -> & P)]; cbn; [reflexivity|]. rewrite P. reflexivity.
Qed.
Print Assumptions C74_delivery.
(** It never returns without an error and never waits for the pipeline: when it ends, the program
    ends with status 1, and the next stage may not have received anything. *)
Theorem C74_no_loss_refuted :
  forall (R M St : Type) (parse : string -> option (list R)) (inj : R -> M) (st0 : St) (g : @NetModel.stage M St) cap r0 root es a o,
  kafka_run parse root es = (a, o) -> g_driver g = false -> length (sends a) <= cap ->
  waits a = false /\ o <> ORet /\
  forall c, root = Some c ->
  let net := [driver_stage inj (ch_id c) st0 a; g] in
  exists ls s, steps net cap (init net r0) ls s /\ s_crash s = false /\
    r_infl (s_rt s 0) = [] /\ r_sent (s_rt s 0) = map (fun r => (Some (ch_id c), inj r)) (sends a) /\ r_recv (s_rt s 1) = [].
Proof.
  intros R M St parse inj st0 g cap r0 root es a o E GD LE.
  assert (X : waits a = false /\ o <> ORet).
  { unfold kafka_run in E. destruct root as [c|]; [|injection E as <- <-; split; [reflexivity|discriminate]].
    destruct (seqb (ch_type c) otel_chan); [|injection E as <- <-; split; [reflexivity|discriminate]].
    apply kloop_end in E as [[-> ->]|[-> ->]]; (split; [|discriminate]); unfold waits; [rewrite existsb_app|]; clear;
      induction (sends a); cbn in *; auto. }
  destruct X as [X1 X2]. repeat split; auto. intros c _.
  destruct (undelivered inj st0 g cap r0 (ch_id c) a GD LE) as (ls & s & A & B & C & D & F & _). exists ls, s. auto.
Qed.
Print Assumptions C74_no_loss_refuted.
(** Its configuration: accepted exactly with a Kafka map naming the brokers and a list of topic
    names; a topic that is not a string crashes the program. *)
Theorem C74_config :
  forall c,
  (forall m ts, mget "kafka.config" c = Some (KMap m) -> mhas "bootstrap.servers" m = true -> mget "kafka.topics" c = Some (KList (map KStr ts)) ->
     exists k, create_kafka_config c = Ok (Some k) /\ k_topics k = ts /\
       k_enc k = (match mget "kafka.encoding" c with Some (KStr e) => if seqb e "json" then EJson else EProto | _ => EProto end)) /\
  (forall k, create_kafka_config c = Ok (Some k) ->
     exists m, mget "kafka.config" c = Some (KMap m) /\ mhas "bootstrap.servers" m = true /\ mget "kafka.topics" c = Some (KList (map KStr (k_topics k)))) /\
  (create_kafka_config c = Panic <->
     exists m l, mget "kafka.config" c = Some (KMap m) /\ mhas "bootstrap.servers" m = true /\ mget "kafka.topics" c = Some (KList l) /\ forall ts, l <> map KStr ts).
Proof.
  assert (MH : forall m, mhas "bootstrap.servers" (fold_right (fun kv cm => mset (fst kv) (snd kv) cm) kafka_defaults m) = mhas "bootstrap.servers" m).
  { intros m. assert (H : mhas "bootstrap.servers" kafka_defaults = false) by reflexivity. revert H. generalize "bootstrap.servers" kafka_defaults. intros key d H.
    unfold mhas in *. induction m as [|[k v] m IH]; cbn [fold_right fst snd mset mget]; [destruct (mget key d); [discriminate|reflexivity]|].
    destruct (seqb key k); [reflexivity|exact IH]. }
  intros c. unfold create_kafka_config. split; [|split].
  - intros m ts -> B ->. rewrite MH, B. rewrite (proj2 (topic_list_spec (map KStr ts) ts) eq_refl). cbn. eexists. split; [reflexivity|]. split; [reflexivity|].
    cbn. destruct (mget "kafka.encoding" c) as [[e|l|m'|]|]; try reflexivity. unfold parse_encoding.
    destruct (seqb e "proto") eqn:EP; [|destruct (seqb e "json"); reflexivity].
    apply String.eqb_eq in EP. subst e. reflexivity.
  - intros k. destruct (mget "kafka.config" c) as [[s|l|m|]|]; try discriminate. rewrite MH. destruct (mhas "bootstrap.servers" m) eqn:B; [|discriminate].
    destruct (mget "kafka.topics" c) as [[s|l|m'|]|] eqn:T; try discriminate. intros E. exists m. repeat split; auto.
    destruct (topic_list l) as [ts| | |] eqn:TL; try discriminate. injection E as <-. cbn. apply topic_list_spec in TL. subst l. reflexivity.
  - split.
    + destruct (mget "kafka.config" c) as [[s|l|m|]|]; try discriminate. rewrite MH. destruct (mhas "bootstrap.servers" m) eqn:B; [|discriminate].
      destruct (mget "kafka.topics" c) as [[s|l|m'|]|] eqn:T; try discriminate. intros E. exists m, l. repeat split; auto.
      intros ts ->. rewrite (proj2 (topic_list_spec (map KStr ts) ts) eq_refl) in E. discriminate.
    + intros (m & l & -> & B & -> & N). rewrite MH, B. destruct (topic_list_total l) as [[ts E]| ->]; [|reflexivity].
      apply topic_list_spec in E. destruct (N ts E).
Qed.
Print Assumptions C74_config.
(** The client gets the settings of the Kafka map; where that is silent it belongs to the processor's own consumer
    group and starts at the oldest message. *)
Theorem C74_settings :
  forall c k m, create_kafka_config c = Ok (Some k) -> mget "kafka.config" c = Some (KMap m) ->
  (forall x v, mget x m = Some v -> mget x (k_map k) = Some v) /\
  (mget "group.id" m = None -> mget "group.id" (k_map k) = Some (KStr "sfprocessor-otel-kafka-driver")) /\
  (mget "auto.offset.reset" m = None -> mget "auto.offset.reset" (k_map k) = Some (KStr "earliest")) /\
  (forall x, mget x m = None -> x <> "group.id" -> x <> "auto.offset.reset" -> mget x (k_map k) = None).
Proof.
  intros c k m E Em. unfold create_kafka_config in E. rewrite Em in E.
  assert (G : forall x, mget x (fold_right (fun kv cm => mset (fst kv) (snd kv) cm) kafka_defaults m) =
                        match mget x m with Some v => Some v | None => mget x kafka_defaults end).
  { intros x. clear. induction m as [|[y v] m IH]; [reflexivity|]. cbn [fold_right fst snd]. rewrite mget_mset, IH.
    cbn [mget]. destruct (seqb x y); reflexivity. }
  destruct (mhas _ _); [|discriminate]. destruct (mget "kafka.topics" c) as [[s|l|m'|]|]; try discriminate.
  destruct (topic_list l) as [ts| | |]; try discriminate. cbn [rbind] in E. injection E as <-. cbn [k_map].
  repeat split.
  - intros x v Hx. rewrite G, Hx. reflexivity.
  - intros Hx. rewrite G, Hx. reflexivity.
  - intros Hx. rewrite G, Hx. reflexivity.
  - intros x Hx N1 N2. rewrite G, Hx. unfold kafka_defaults. cbn [mget].
    destruct (seqb x "group.id") eqn:E1; [apply seqb_eq in E1; contradiction|].
    destruct (seqb x "auto.offset.reset") eqn:E2; [apply seqb_eq in E2; contradiction|]. reflexivity.
Qed.
Print Assumptions C74_settings.
Example ex_kafka :
  kafka_run (fun m => if seqb m "bad" then None else Some [m; m]) (Some (mkChan 0 "otelchan")) [KMsg "x"; KStop; KMsg "y"; KMsg "bad"; KMsg "z"]
  = ([ASend "x"; ASend "x"; ASend "y"; ASend "y"; AClose], OErr).
Proof. reflexivity. Qed.
Example ex_kafka_conf :
  create_kafka_config [("driver", KStr "otelkafka"); ("out", KStr "otel otelchan"); ("kafka.config", KMap [("bootstrap.servers", KStr "kafka1:29092")]); ("kafka.topics", KList [KStr "otel-logs"]); ("kafka.encoding", KStr "proto")]
  = Ok (Some (mkK [("bootstrap.servers", KStr "kafka1:29092"); ("group.id", KStr "sfprocessor-otel-kafka-driver"); ("auto.offset.reset", KStr "earliest")] ["otel-logs"] EProto)).
Proof. reflexivity. Qed.

(** C75.  Choice of the drivers.  The names of the configuration, in order. *)
Definition configured (ds : list conf) : list string := flat_map (fun d => match mget DrivConfig d with Some (VStr n) => [n] | _ => [] end) ds.
Theorem C75_selection :
  forall known arg ds,
  (arg <> "" -> arg <> "socket" -> load_drivers known (driver_arg arg) ds = if known arg then Some [arg] else None) /\
  (arg = "" -> configured ds <> [] -> (forall n, In n (configured ds) -> known n = true) -> load_drivers known (driver_arg arg) ds = Some (configured ds)) /\
  (arg = "" -> (configured ds = [] \/ exists n, In n (configured ds) /\ known n = false) -> load_drivers known (driver_arg arg) ds = None).
Proof.
  intros known arg ds. unfold load_drivers, driver_arg. repeat split.
  - intros N1 N2. destruct (seqb arg "socket") eqn:E1; [apply String.eqb_eq in E1; congruence|].
    destruct (seqb arg "") eqn:E2; [apply String.eqb_eq in E2; congruence|]. destruct (known arg); reflexivity.
  - intros -> NE K. cbn. rewrite (config_drivers_complete known ds K). fold (configured ds). destruct (configured ds); [congruence|reflexivity].
  - intros -> H. cbn. destruct (config_drivers known ds) as [l|] eqn:E; [|reflexivity]. apply config_drivers_spec in E as [-> K].
    fold (configured ds) in *. destruct H as [-> |(n & I & KN)]; [reflexivity|]. rewrite (K n I) in KN. discriminate.
Qed.
Print Assumptions C75_selection.
(** The socket driver cannot be chosen by name: the argument `socket` (the default of the shipped
    container) means `the drivers of the configuration', and with a configuration that names none,
    like those shipped for SysFlow, the program ends with status 1 whatever the rest is. *)
Theorem C75_socket_refuted :
  forall known stages_ok test ds init_ok run_ok, configured ds = [] ->
  main_run known stages_ok test ds init_ok run_ok "socket" = ([], 1%Z).
Proof.
  intros known stages_ok test ds init_ok run_ok H. unfold main_run. cbn [driver_arg seqb String.eqb].
  assert (E : load_drivers known "" ds = None).
  { pose proof (C75_selection known "" ds) as (_ & _ & X). apply X; auto. }
  change (driver_arg "socket") with "". rewrite E. reflexivity.
Qed.
Print Assumptions C75_socket_refuted.
Example ex_socket : main_run (fun _ => true) true false [] (fun _ _ => true) (fun _ _ => true) "socket" = ([], 1%Z)
  /\ main_run (fun _ => true) true false [] (fun _ _ => true) (fun _ _ => true) "file" = ([mkStarted "file" None true], 0%Z).
Proof. split; reflexivity. Qed.

(** C76.  Every driver is initialised in order and started with the configuration entry of its name
    if the names are distinct; the program waits for the last one. *)
Theorem C76_started :
  forall ds init_ok run_ok names, names <> [] -> (forall n, In n names -> init_ok n (driver_config n ds) = true) ->
  init_drivers ds init_ok run_ok names =
    (map (fun n => mkStarted n (driver_config n ds) false) (removelast names) ++ [mkStarted (last names "") (driver_config (last names "") ds) true],
     negb (run_ok (last names "") (driver_config (last names "") ds))) /\
  (forall n d, In d ds -> mget DrivConfig d = Some (VStr n) -> (forall d', In d' ds -> mget DrivConfig d' = Some (VStr n) -> d' = d) -> driver_config n ds = Some d).
Proof. intros ds init_ok run_ok names NE IO. split; [apply init_all; assumption|]. intros n d. apply driver_config_unique. Qed.
Print Assumptions C76_started.
Lemma exit_status :
  forall known stages_ok test ds init_ok run_ok arg,
  snd (main_run known stages_ok test ds init_ok run_ok arg) = 0%Z <->
  exists names, load_drivers known (driver_arg arg) ds = Some names /\ stages_ok = true /\
    (test = true \/ ((forall n, In n names -> init_ok n (driver_config n ds) = true) /\ run_ok (last names "") (driver_config (last names "") ds) = true)).
Proof.
  intros known stages_ok test ds init_ok run_ok arg. unfold main_run.
  destruct (load_drivers known (driver_arg arg) ds) as [names|] eqn:L.
  - assert (NE : names <> []) by (intros ->; unfold load_drivers in L; destruct (if seqb (driver_arg arg) "" then _ else _) as [[|]|]; discriminate).
    destruct stages_ok; [|cbn; split; [discriminate|intros (? & _ & ? & _); discriminate]].
    destruct test; [cbn; split; [intros _; exists names; auto|reflexivity]|].
    pose proof (init_exit ds init_ok run_ok names NE) as X. destruct (init_drivers ds init_ok run_ok names) as [st e]. cbn [snd] in *. split.
    + destruct e; [discriminate|]. intros _. exists names. repeat split; auto. right. apply X. reflexivity.
    + intros (n & [= <-] & _ & [H|H]); [discriminate|]. apply X in H. rewrite H. reflexivity.
  - cbn. split; [discriminate|intros (? & ? & _); discriminate].
Qed.
(** The exit status is 0 exactly if the pipeline loads and, unless this was only a test, every
    driver initialises and the last one runs without error. *)
Theorem C76_exit_status :
  forall known stages_ok test ds init_ok run_ok arg,
  snd (main_run known stages_ok test ds init_ok run_ok arg) = 0%Z <->
  exists names, load_drivers known (driver_arg arg) ds = Some names /\ stages_ok = true /\
    (test = true \/ ((forall n, In n names -> init_ok n (driver_config n ds) = true) /\ run_ok (last names "") (driver_config (last names "") ds) = true)).
Proof. exact exit_status. Qed.
Print Assumptions C76_exit_status.
(** It is 0 or 1. *)
Theorem C76_exit_codes :
  forall known stages_ok test ds init_ok run_ok arg, let z := snd (main_run known stages_ok test ds init_ok run_ok arg) in z = 0%Z \/ z = 1%Z.
Proof.
  intros known stages_ok test ds init_ok run_ok arg. cbv zeta. unfold main_run. destruct (load_drivers known (driver_arg arg) ds) as [names|]; [|now right].
  destruct stages_ok; [|now right]. destruct test; [now left|]. destruct (init_drivers ds init_ok run_ok names) as [st []]; [now right|now left].
Qed.
Print Assumptions C76_exit_codes.
(** The failure of a driver other than the last is not noticed. *)
Theorem C76_background_errors_refuted :
  forall known ds init_ok run_ok names n, configured ds = names ++ [n] -> (forall m, In m (configured ds) -> known m = true) ->
  (forall m c, init_ok m c = true) -> (forall c, run_ok n c = true) ->
  snd (main_run known true false ds init_ok run_ok "") = 0%Z.
Proof.
  intros known ds init_ok run_ok names n C K IO RN. apply C76_exit_status. exists (configured ds). repeat split.
  - apply C75_selection; auto. rewrite C. destruct names; discriminate.
  - right. split; [auto|]. rewrite C, last_last. apply RN.
Qed.
Print Assumptions C76_background_errors_refuted.
(** Two entries of the same name are started twice with the first entry's configuration: the
    second's path and channel are ignored, and (C41_shared_output_refuted) the two drivers cannot
    both end without a crash. *)
Theorem C76_same_name_refuted :
  forall d1 d2 n init_ok run_ok, mget DrivConfig d1 = Some (VStr n) -> mget DrivConfig d2 = Some (VStr n) -> init_ok n (Some d1) = true ->
  fst (init_drivers [d1; d2] init_ok run_ok (configured [d1; d2])) = [mkStarted n (Some d1) false; mkStarted n (Some d1) true].
Proof.
  intros d1 d2 n init_ok run_ok E1 E2 IO. unfold configured. cbn [flat_map]. rewrite E1, E2.
  assert (D : driver_config n [d1; d2] = Some d1) by (cbn [driver_config]; rewrite E1; unfold seqb; rewrite String.eqb_refl; reflexivity).
  cbn [app init_drivers]. rewrite D. cbv zeta. rewrite IO. reflexivity.
Qed.
Print Assumptions C76_same_name_refuted.
Definition two_files : list conf :=
  [[("driver", VStr "file"); ("path", VStr "/a"); ("out", VStr "x sysflowchan")]; [("driver", VStr "file"); ("path", VStr "/b"); ("out", VStr "y sysflowchan")]].
Example ex_two_files : map (fun st => input_path (st_conf st) "") (fst (init_drivers two_files (fun _ _ => true) (fun _ _ => true) (configured two_files))) = ["/a"; "/a"].
Proof. reflexivity. Qed.

(** C77.  OpenTelemetry files.  The logs of one file are delivered as they are, whenever the
    receiver looks at them. *)
Theorem C77_one_file :
  forall (J L : Type) (decode : option L -> J -> L) flag root c stat open path f js,
  root = Some c -> ch_type c = otel_chan -> (forall k, flag k = true) ->
  get_files stat path = Ok (Some [f]) -> open f = OLogs js ->
  exists a, otel_file_run decode flag root stat open path = (a ++ [OClose; OWait], ORet) /\ osends a = seq 0 (length js) /\
    forall i v, i < length js -> (Sees [] (a ++ [OClose; OWait]) i v <-> nth_error (map (decode None) js) i = Some v).
Proof.
  intros J L decode flag root c stat open path f js -> TY T G O. unfold otel_file_run. rewrite TY. cbn [seqb]. unfold seqb. rewrite String.eqb_refl, G.
  rewrite (read_one decode flag open f js T O 0 []), unmarshal_nil. eexists. split; [reflexivity|]. split.
  - match goal with |- osends (?x :: ?y) = _ => change (osends (x :: y)) with (osends y) end. apply osends_map.
  - intros i v LT. cbn [app]. split.
    + intros H. inversion H as [| |? ? ? ? ? HS| |]; subst. apply sees_send in HS; [|exact LT]. destruct HS as (m & [<-|[]] & E). exact E.
    + intros H. constructor. apply sees_send; [exact LT|]. eexists. split; [left; reflexivity|exact H].
Qed.
Print Assumptions C77_one_file.
(** A directory, if every log sets all its fields and the receiver is done with it before the next
    file is loaded. *)
Theorem C77_directory_partial :
  forall (J L : Type) (decode : option L -> J -> L) flag root c stat open path fs jss,
  root = Some c -> ch_type c = otel_chan -> (forall k, flag k = true) ->
  get_files stat path = Ok (Some fs) -> Forall2 (fun f js => open f = OLogs js) fs jss ->
  (forall l j, decode (Some l) j = decode None j) ->
  exists a, otel_file_run decode flag root stat open path = (a ++ [OClose; OWait], ORet) /\ length (osends a) = length (concat jss) /\
    forall i j, nth_error (concat jss) i = Some j -> SeesAtOnce [] (a ++ [OClose; OWait]) i (decode None j).
Proof.
  intros J L decode flag root c stat open path fs jss -> TY T G F D. unfold otel_file_run. rewrite TY. unfold seqb. rewrite String.eqb_refl, G.
  destruct (read_logs_all decode flag open T fs jss F 0 []) as (a & -> & LA & SA). exists a. split; [reflexivity|]. split; [exact LA|]. intros i j E. apply SA; assumption.
Qed.
Print Assumptions C77_directory_partial.
(** In general the second file's logs overwrite those of the first in place: a receiver that looks
    late sees the second file's log in the place of the first's, and one that looks at once sees in
    the second log the fields it does not set with the values of the first. *)
Theorem C77_directory_refuted :
  forall (J L : Type) (decode : option L -> J -> L) flag root c stat open path f1 f2 j1 j2,
  root = Some c -> ch_type c = otel_chan -> (forall k, flag k = true) ->
  get_files stat path = Ok (Some [f1; f2]) -> open f1 = OLogs [j1] -> open f2 = OLogs [j2] ->
  let merged := decode (Some (decode None j1)) j2 in
  exists a, otel_file_run decode flag root stat open path = (a, ORet) /\ osends a = [0; 0] /\
    Sees [] a 0 merged /\ (forall v, Sees [] a 1 v -> v = merged) /\ SeesAtOnce [] a 0 (decode None j1) /\ SeesAtOnce [] a 1 merged.
Proof.
  intros J L decode flag root c stat open path f1 f2 j1 j2 -> TY T G O1 O2 merged. unfold otel_file_run. rewrite TY. unfold seqb. rewrite String.eqb_refl, G.
  cbn. rewrite O1. cbn. rewrite !T. cbn. rewrite O2. cbn. rewrite !T. cbn. eexists. split; [reflexivity|]. split; [reflexivity|]. fold merged. repeat split.
  - constructor. eapply Se_here; [right; left; reflexivity|reflexivity].
  - intros v H. inversion H as [| |? ? ? ? ? H1| |]; subst. inversion H1 as [|? ? ? ? ? H2| | |]; subst. inversion H2 as [| |? ? ? ? ? H3| |]; subst.
    inversion H3 as [? ? ? m ? IN NE| | | |]; subst. cbn in IN. destruct IN as [<-|[]]. cbn in NE. congruence.
  - constructor. apply So_here. reflexivity.
  - constructor. apply So_later. constructor. apply So_here. reflexivity.
Qed.
Print Assumptions C77_directory_refuted.
(** A file that cannot be opened or parsed ends the run with an error: the logs of the files before it
    have been sent, but the channel is not closed and nobody waits for the pipeline. *)
Theorem C77_failure :
  forall (J L : Type) (decode : option L -> J -> L) flag root c stat open path fs jss f fs',
  root = Some c -> ch_type c = otel_chan -> (forall k, flag k = true) ->
  get_files stat path = Ok (Some (fs ++ f :: fs')) -> Forall2 (fun f js => open f = OLogs js) fs jss -> open f = OOpenErr \/ open f = OParseErr ->
  exists a, otel_file_run decode flag root stat open path = (a, OErr) /\ length (osends a) = length (concat jss) /\ ~ In OClose a /\ ~ In OWait a.
Proof.
  intros J L decode flag root c stat open path fs jss f fs' -> TY T G F B. unfold otel_file_run. rewrite TY. unfold seqb. rewrite String.eqb_refl, G.
  assert (A : forall n h, exists a, read_logs decode flag open n h (fs ++ f :: fs') = (a, true) /\ length (osends a) = length (concat jss) /\ ~ In OClose a /\ ~ In OWait a).
  { clear G. induction F as [|g js fs jss O F IH]; intros n h; cbn [List.app read_logs].
    - exists []. destruct B as [-> | ->]; cbn; auto.
    - rewrite O. destruct (send_logs_all (L := L) flag T (length js) n 0) as [n' ->]. rewrite T.
      destruct (IH (S n') (unmarshal decode h js)) as (a & -> & LA & C & W). eexists. split; [reflexivity|].
      assert (NI : forall x : oact L, x = OClose \/ x = OWait -> ~ In x a -> ~ In x (OMem (unmarshal decode h js) :: map OSend (seq 0 (length js)) ++ a)).
      { intros x Hx Na [H|H]; [destruct Hx; subst; discriminate|]. apply in_app_or in H as [H|H]; [|tauto]. apply in_map_iff in H as (i & <- & _). destruct Hx; discriminate. }
      split; [|split; apply NI; auto].
      match goal with |- length (osends (?x :: ?y)) = _ => change (osends (x :: y)) with (osends y) end. cbn [concat].
      rewrite osends_app, osends_map, !app_length, seq_length, LA. reflexivity. }
  destruct (A 0 []) as (a & -> & R). exists a. auto.
Qed.
Print Assumptions C77_failure.
(** Without a channel of the right type, or when the path does not lead to files, nothing is read. *)
Theorem C77_refused :
  forall (J L : Type) (decode : option L -> J -> L) flag root stat open path,
  root = None \/ (exists c, root = Some c /\ ch_type c <> otel_chan) \/ get_files stat path = Ok None ->
  otel_file_run decode flag root stat open path = ([], OErr).
Proof.
  intros J L decode flag root stat open path H. unfold otel_file_run. destruct root as [c|]; [|reflexivity].
  destruct (seqb (ch_type c) otel_chan) eqn:E; [|reflexivity]. apply seqb_eq in E.
  destruct H as [H|[(c' & [= <-] & N)|G]]; [discriminate|contradiction|]. rewrite G. reflexivity.
Qed.
Print Assumptions C77_refused.
Example ex_otel_failure : otel_file_run (J := nat) (fun _ j => j) (fun _ => true) (Some (mkChan 0 "otelchan")) (fun _ => StDir (Some ["a"; "b"; "c"]))
  (fun f => if seqb f "/d/a" then OLogs [1; 2] else OParseErr) "/d" = ([OMem [1; 2]; OSend 0; OSend 1], OErr).
Proof. reflexivity. Qed.
(** Field by field decoding, as the JSON library does: the second log has no severity and gets that
    of the first file's log. *)
Definition field_decode (o : option (gomap string)) (j : gomap string) : gomap string :=
  match o with None => j | Some l => fold_right (fun kv l => mset (fst kv) (snd kv) l) l j end.
Example ex_merge : mget "severity" (field_decode (Some (field_decode None [("body", "a"); ("severity", "high")])) [("body", "b")]) = Some "high"
  /\ mget "body" (field_decode (Some (field_decode None [("body", "a"); ("severity", "high")])) [("body", "b")]) = Some "b".
Proof. split; reflexivity. Qed.
