(** * Properties C40, C42, C54: environment overrides, channel names and pipeline loading. *)
From Verif Require Import GoBase GoFacts PluginModel SpecPlugin PluginFacts.

(** C40.  With an environment of NAME=VALUE entries, loading keeps the stages in place and sets
    exactly the addressed attributes of each stage that names a processor, to the value of the
    last entry addressing them; every other attribute keeps its value. *)
Theorem C40_env_overrides :
  forall env p, env_ok env -> exists p', update_config env p = Ok p' /\ length p' = length p /\
  forall i c, nth_error p i = Some c -> exists c', nth_error p' i = Some c' /\
  forall a,
    match mget "processor" c with
    | Some (VStr proc) => (exists v, env_sets env proc a v /\ mget a c' = Some (VStr v)) \/ ((forall v, ~ env_sets env proc a v) /\ mget a c' = mget a c)
    | _ => mget a c' = mget a c
    end.
Proof. exact env_overrides. Qed.
Print Assumptions C40_env_overrides.
(** An entry without '=' whose name addresses a processor of the pipeline crashes the loader. *)
Theorem C40_env_panic :
  forall env e p proc c, In e env -> has_byte "="%char e = false -> mget "processor" c = Some (VStr proc) -> In c p ->
  (exists k1, cut_at "_"%char (to_lower e) = Some (proc, k1)) -> update_config env p = Panic.
Proof. exact env_panic. Qed.
Print Assumptions C40_env_panic.

Definition ex_pipe : list conf :=
  [[("processor", VStr "policyengine"); ("in", VStr "flat flattenerchan"); ("policies", VStr "/a")];
   [("processor", VStr "exporter"); ("in", VList [VStr "evt eventchan"]); ("buffer", VStr "0")]].
Example ex_env :
  update_config ["POLICYENGINE_POLICIES=/b=c"; "EXPORTER_ES_BULK=9"; "HOME=/root"; "POLICYENGINE_POLICIES=/d"] ex_pipe
  = Ok [[("policies", VStr "/d"); ("policies", VStr "/b=c"); ("processor", VStr "policyengine"); ("in", VStr "flat flattenerchan"); ("policies", VStr "/a")];
        [("es.bulk", VStr "9"); ("processor", VStr "exporter"); ("in", VList [VStr "evt eventchan"]); ("buffer", VStr "0")]].
Proof. vm_compute. reflexivity. Qed.
Example ex_env_ok : env_ok ["POLICYENGINE_POLICIES=/b=c"; "HOME=/root"].
Proof. intros e [<-|[<-|[]]]; reflexivity. Qed.
Example ex_env_sets : env_sets ["EXPORTER_ES_BULK=9"; "HOME=/root"] "exporter" "es.bulk" "9".
Proof.
  exists [], "EXPORTER_ES_BULK", ["HOME=/root"]. split; [reflexivity|]. split; [reflexivity|]. split.
  - exists "es_bulk". vm_compute. auto.
  - intros e n v [<-|[]] E Hn A. assert (n = "HOME" /\ v = "/root") as [-> ->].
    { apply (entry_unique n v "HOME" "/root"); auto. }
    apply addresses_cut in A as (k & A & _). vm_compute in A. discriminate.
Qed.
Example ex_env_panic : update_config ["EXPORTER_x"] ex_pipe = Panic.
Proof. vm_compute. reflexivity. Qed.

(** C42.  In any sequence of requests from an empty cache, two successful requests get the same
    channel iff they use the same identifier. *)
Theorem C42_consistent :
  forall types reqs s os, get_chans types empty_cache reqs = Ok (s, os) ->
  forall i j r r' id ty id' ty' c c', nth_error reqs i = Some r -> nth_error reqs j = Some r' -> asks r id ty -> asks r' id' ty' ->
  nth_error os i = Some (Some c) -> nth_error os j = Some (Some c') -> (c = c' <-> id = id').
Proof. exact chans_consistent. Qed.
Print Assumptions C42_consistent.
(** Later requests never change the channel of an identifier. *)
Theorem C42_kept :
  forall types a b s1 o1 s2 o2, get_chans types empty_cache a = Ok (s1, o1) -> get_chans types s1 b = Ok (s2, o2) ->
  forall id c, mget id (ca_map s1) = Some c -> mget id (ca_map s2) = Some c.
Proof. exact chans_kept. Qed.
Print Assumptions C42_kept.
(** The type of a later request is not checked: it gets a channel of the first request's type. *)
Theorem C42_type_checked_refuted :
  forall types ra rb id ta tb, asks ra id ta -> asks rb id tb -> In ta types ->
  exists s c, get_chans types empty_cache [ra; rb] = Ok (s, [Some c; Some c]) /\ ch_type c = ta.
Proof. exact chans_type_ignored. Qed.
Print Assumptions C42_type_checked_refuted.
(** A request is refused if it has more than two words; if it has fewer it crashes instead. *)
Theorem C42_malformed_reported_refuted :
  forall types s r l, Words r l -> (get_chan types s r = Panic <-> length l < 2) /\ (2 < length l -> get_chan types s r = Ok (s, None)).
Proof. exact chans_panic. Qed.
Print Assumptions C42_malformed_reported_refuted.
(** An entry of a list of channels that is not a text crashes the loader too, after those before it have been made; a value that is
    neither a text nor a list names no channel, and is no error. *)
Theorem C42_not_text_refuted :
  forall types s, (forall l1 x l2 s1 cs, tag_chans types s (VList l1) = Ok (s1, Some cs) -> (forall n, x <> VStr n) ->
    tag_chans types s (VList (l1 ++ x :: l2)) = Panic) /\ tag_chans types s VOther = Ok (s, Some []).
Proof. intros types s. split; [|reflexivity]. intros l1 x l2 s1 cs H N. exact (chan_list_bad types x l2 N l1 s s1 cs H). Qed.
Print Assumptions C42_not_text_refuted.
Example ex_not_text : tag_chans ["eventchan"] empty_cache (VList [VStr "evt eventchan"]) = Ok (mkCache [("evt", mkChan 0 "eventchan")] 1, Some [mkChan 0 "eventchan"])
  /\ tag_chans ["eventchan"] empty_cache (VList [VStr "evt eventchan"; VOther]) = Panic.
Proof. split; reflexivity. Qed.
Example ex_asks : asks "  flat   flattenerchan " "flat" "flattenerchan" /\ asks "flat eventchan" "flat" "eventchan".
Proof. split; apply Words_iff; reflexivity. Qed.
Example ex_few : Words " flat " ["flat"] /\ Words " a b	c" ["a"; "b"; "c"].
Proof. split; apply Words_iff; reflexivity. Qed.
Example ex_chans :
  get_chans ["eventchan"; "flattenerchan"] empty_cache ["flat flattenerchan"; "evt eventchan"; " flat  flattenerchan"; "x nochan"]
  = Ok (mkCache [("evt", mkChan 1 "eventchan"); ("flat", mkChan 0 "flattenerchan")] 2,
        [Some (mkChan 0 "flattenerchan"); Some (mkChan 1 "eventchan"); Some (mkChan 0 "flattenerchan"); None]).
Proof. vm_compute. reflexivity. Qed.

(** C54.  If every stage names its processor and loading reports no error then every stage of the
    configuration is running, on the channels its tags name, and distinct identifiers are
    distinct channels. *)
Theorem C54_load_complete_partial :
  forall types procs init_ok p s sgs,
  load types procs init_ok empty_cache p = Ok (s, sgs, false) ->
  (forall c, In c p -> exists n, mget "processor" c = Some (VStr n)) ->
  length sgs = length p /\ Forall2 (stage_of procs init_ok (ca_map s)) p sgs /\
  (forall id id' ch, mget id (ca_map s) = Some ch -> mget id' (ca_map s) = Some ch -> id = id').
Proof. exact load_ok. Qed.
Print Assumptions C54_load_complete_partial.
(** Without the first hypothesis it is false: a stage without processor tag silently ends the
    pipeline, without error and whatever follows it. *)
Theorem C54_load_complete_refuted :
  forall types procs init_ok c p s, (forall n, mget "processor" c <> Some (VStr n)) ->
  load types procs init_ok s (c :: p) = Ok (s, [], false).
Proof. exact load_truncated. Qed.
Print Assumptions C54_load_complete_refuted.
Example ex_load :
  load ["eventchan"; "flattenerchan"] (fun _ => true) (fun _ _ => true) empty_cache
    [[("processor", VStr "policyengine"); ("in", VStr "flat flattenerchan"); ("out", VList [VStr "evt eventchan"])];
     [("processor", VStr "exporter"); ("in", VStr "evt eventchan")]]
  = Ok (mkCache [("evt", mkChan 1 "eventchan"); ("flat", mkChan 0 "flattenerchan")] 2,
        [mkStage "policyengine" [mkChan 0 "flattenerchan"] [mkChan 1 "eventchan"];
         mkStage "exporter" [mkChan 1 "eventchan"] []], false).
Proof. vm_compute. reflexivity. Qed.
Example ex_load_truncated :
  load ["eventchan"] (fun _ => true) (fun _ _ => true) empty_cache
    [[("processsor", VStr "policyengine")]; [("processor", VStr "exporter"); ("in", VStr "evt eventchan")]]
  = Ok (empty_cache, [], false).
Proof. vm_compute. reflexivity. Qed.
