(** * Property C114: the sizes, intervals and workers one may tune do not change what is exported. *)
From Coq Require Import Lia Permutation.
From Verif Require ReaderModel SpecReader DriverModel SpecDriver ExportFacts JsonFlat SpecJson.
From Verif Require Import GoBase GoFacts Predicates FlatRecord FieldTables Samples FalcoModel SpecFalco SpecFlat SigmaModel LexerModel SpecLexer
  EngineModel EngineFlat SpecEngine SpecEngineFlat PoolModel SpecPool MonitorModel SpecMonitor InitModel SpecInit InitFacts LiveFacts
  FlattenModel SpecFlatten ExportModel SpecExport AppModel SpecApp AppFacts ChainModel SpecChain ChainFacts SpecRest EcsModel SpecEcs ElasticModel SpecElastic ElasticFacts
  RerunModel RerunFacts SpecTune TuneFacts Props_Init Props_App Props_Chain Props_Ecs Props_Elastic Props_Rest Props_Rerun.
Local Open Scope nat_scope.

Section P.
Variables (P : payloads) (ipstr : Z -> string) (jsonsvcs : list service -> string) (hash : flatrec -> Z).
Variables (X : sfgo_fns) (M : gomap fieldmap) (pmatch : string -> string -> bool) (ord : srule -> list nat -> list (string * search)) (n : nat).
Variable ah : ahandler sfrec.
Variables (E : ecs_fns) (version ecsversion : string).
Notation attempted := (attempted P ipstr jsonsvcs hash X M pmatch ord n ah).
Notation starts h conf rd := (InitModel.init (sf_ops X M) pmatch ord n h conf = Ok (Some rd)).
Notation docs_of := (ecs_docs X E version ecsversion).
Notation unmonitored conf := ((exists d, policies_in conf d) /\ monitor_is conf NoneType \/ no_policies conf).

(** C114.  Policies of either language that are not monitored, or none; no rate filter.  Two configurations of the policy engine that
    differ in tuning only, and two complete lives, [a] with one and [b] with the other, on the same records: whatever the numbers of
    workers, the channel capacities, the exporter's buffer sizes and start times, the clocks and the interleavings, and whatever else is
    in the reader's configurations, the same records are exported, each as often, with the same rules and tags attached. *)
Theorem C114_same_records :
  forall h conf conf' rd rd' fconf fconf' rs a b,
  tuned conf conf' -> unmonitored conf -> unmonitored conf' -> starts h conf rd -> starts h conf' rd' ->
  filter_config fconf = None -> filter_config fconf' = None -> SpecReader.Sane false rs ->
  attempted rd fconf rs a -> x_open (a_exp a) = false -> attempted rd' fconf' rs b -> x_open (a_exp b) = false ->
  Permutation (concat (x_batches (a_exp a))) (concat (x_batches (a_exp b))).
Proof.
  intros h conf conf' rd rd' fconf fconf' rs a b T F F' Hi Hi' Ho Ho' Sn A Ca B Cb.
  destruct (life_all P ipstr jsonsvcs hash X M pmatch ord n ah h conf rd fconf rs a F Hi Ho Sn A Ca) as (st & ds & R & Pm & _).
  destruct (life_all P ipstr jsonsvcs hash X M pmatch ord n ah h conf' rd' fconf' rs b F' Hi' Ho' Sn B Cb) as (st' & ds' & R' & Pm' & _).
  rewrite R in R'. injection R' as <- <-. etransitivity; [exact Pm|]. symmetry. etransitivity; [exact Pm'|].
  rewrite (flat_map_ext _ _ (tuned_start X M pmatch ord n h conf conf' rd rd' T ltac:(destruct F as [[_ ?]|?]; auto) Hi Hi' ah)). reflexivity.
Qed.
(** The JSON text written to the file target: the same lines, each as often. *)
Theorem C114_same_lines :
  forall h conf conf' rd rd' fconf fconf' rs a b two,
  tuned conf conf' -> unmonitored conf -> unmonitored conf' -> starts h conf rd -> starts h conf' rd' -> benign ah ->
  filter_config fconf = None -> filter_config fconf' = None -> SpecReader.Sane false rs ->
  attempted rd fconf rs a -> x_open (a_exp a) = false -> attempted rd' fconf' rs b -> x_open (a_exp b) = false ->
  exists lns lns', Permutation lns lns' /\ made_of_lines (file_text (enc_json X two version) a) lns /\ made_of_lines (file_text (enc_json X two version) b) lns' /\
    Forall2 (fun r l => json_of X two version r = Ok l) (concat (x_batches (a_exp a))) lns /\
    Forall2 (fun r l => json_of X two version r = Ok l) (concat (x_batches (a_exp b))) lns'.
Proof.
  intros h conf conf' rd rd' fconf fconf' rs a b two T F F' Hi Hi' Hb Ho Ho' Sn A Ca B Cb.
  pose proof (C114_same_records h conf conf' rd rd' fconf fconf' rs a b T F F' Hi Hi' Ho Ho' Sn A Ca B Cb) as Pm.
  destruct (life_lines P ipstr jsonsvcs hash X M pmatch ord n ah h conf rd fconf rs a two version F Hi Ho Sn Hb A Ca) as (lns & Fl & Ml).
  destruct (life_lines P ipstr jsonsvcs hash X M pmatch ord n ah h conf' rd' fconf' rs b two version F' Hi' Ho' Sn Hb B Cb) as (lns' & Fl' & Ml').
  destruct (Permutation_Forall2 Pm Fl) as (ls & Pl & Fl2).
  assert (ls = lns').
  { revert lns' Fl' Ml'. generalize Fl2. generalize ls as l. generalize (concat (x_batches (a_exp b))) as bs. clear.
    intros bs l Fl2 lns' Fl' _. revert lns' Fl'. induction Fl2 as [|r x bs l H F IH]; intros lns' Fl'; inversion Fl' as [|r' y bs' l' H' F']; subst; [reflexivity|].
    f_equal; [congruence|]. apply IH, F'. }
  subst ls. exists lns, lns'. auto.
Qed.
(** The documents sent to Elasticsearch: the same, each as often, with the same identifiers. *)
Theorem C114_same_documents :
  forall h conf conf' rd rd' fconf fconf' rs a b,
  tuned conf conf' -> unmonitored conf -> unmonitored conf' -> starts h conf rd -> starts h conf' rd' ->
  filter_config fconf = None -> filter_config fconf' = None -> SpecReader.Sane false rs ->
  attempted rd fconf rs a -> x_open (a_exp a) = false -> attempted rd' fconf' rs b -> x_open (a_exp b) = false ->
  Permutation (concat (map docs_of (x_batches (a_exp a)))) (concat (map docs_of (x_batches (a_exp b)))).
Proof.
  intros h conf conf' rd rd' fconf fconf' rs a b T F F' Hi Hi' Ho Ho' Sn A Ca B Cb. rewrite !docs_concat.
  pose proof (C114_same_records h conf conf' rd rd' fconf fconf' rs a b T F F' Hi Hi' Ho Ho' Sn A Ca B Cb) as Pm.
  unfold ecs_docs. exact (Permutation_flat_map _ Pm).
Qed.
(** With one worker, or without policies, the order is that of the records too, so that the text written is the same to the byte: only
    where it is cut into batches depends on the buffers and the clocks. *)
Theorem C114_one_worker :
  forall h conf conf' rd rd' fconf fconf' rs a b,
  tuned conf conf' -> unmonitored conf -> unmonitored conf' -> starts h conf rd -> starts h conf' rd' ->
  (Z.to_nat (c_concurrency (rd_conf rd)) = 1 /\ Z.to_nat (c_concurrency (rd_conf rd')) = 1) \/ (no_policies conf /\ no_policies conf') ->
  filter_config fconf = None -> filter_config fconf' = None -> SpecReader.Sane false rs ->
  attempted rd fconf rs a -> x_open (a_exp a) = false -> attempted rd' fconf' rs b -> x_open (a_exp b) = false ->
  concat (x_batches (a_exp a)) = concat (x_batches (a_exp b)) /\
  (benign ah -> forall two, file_text (enc_json X two version) a = file_text (enc_json X two version) b).
Proof.
  intros h conf conf' rd rd' fconf fconf' rs a b T F F' Hi Hi' One Ho Ho' Sn A Ca B Cb.
  assert (Eq : concat (x_batches (a_exp a)) = concat (x_batches (a_exp b))).
  { destruct (life_all P ipstr jsonsvcs hash X M pmatch ord n ah h conf rd fconf rs a F Hi Ho Sn A Ca) as (st & ds & R & _ & Pm).
    destruct (life_all P ipstr jsonsvcs hash X M pmatch ord n ah h conf' rd' fconf' rs b F' Hi' Ho' Sn B Cb) as (st' & ds' & R' & _ & Pm').
    rewrite R in R'. injection R' as <- <-. rewrite Pm, Pm' by tauto.
    apply flat_map_ext. exact (tuned_start X M pmatch ord n h conf conf' rd rd' T ltac:(destruct F as [[_ ?]|?]; auto) Hi Hi' ah). }
  split; [exact Eq|]. intros Hb two.
  destruct (life_lines P ipstr jsonsvcs hash X M pmatch ord n ah h conf rd fconf rs a two version F Hi Ho Sn Hb A Ca) as (lns & Fl & Ml).
  destruct (life_lines P ipstr jsonsvcs hash X M pmatch ord n ah h conf' rd' fconf' rs b two version F' Hi' Ho' Sn Hb B Cb) as (lns' & Fl' & Ml').
  rewrite <- Eq in Fl'. assert (lns = lns').
  { generalize Fl' Fl. generalize (concat (x_batches (a_exp a))) as bs. clear. intros bs Fl' Fl. revert lns' Fl'.
    induction Fl as [|r x bs l H F IH]; intros lns' Fl'; inversion Fl' as [|r' y bs' l' H' F']; subst; [reflexivity|]. f_equal; [congruence|]. apply IH, F'. }
  subst lns'. unfold made_of_lines in *. congruence.
Qed.
End P.
Print Assumptions C114_same_records.
Print Assumptions C114_same_lines.
Print Assumptions C114_same_documents.
Print Assumptions C114_one_worker.

(** A policy directory, one worker against two, another buffer, capacity and clock: the hypotheses are met. *)
Lemma tx_life conc buffer cap k : 0 < cap -> match ex_init ["a.yaml"] "none" "alert" conc with Ok (Some rd) => 0 < Z.to_nat (c_concurrency (rd_conf rd)) | _ => False end ->
  exists rd a, ex_init ["a.yaml"] "none" "alert" conc = Ok (Some rd) /\ rx_attempted rd ex_recs a /\ x_open (a_exp a) = false /\ a_buffer a = buffer /\ a_cap a = cap /\ a_clk a 1 = k.
Proof.
  intros Hc F. destruct (ex_init ["a.yaml"] "none" "alert" conc) as [[rd|]| | |] eqn:Ei; [|destruct F|destruct F|destruct F|destruct F].
  assert (Sn : SpecReader.Sane false ex_recs) by exact (proj1 C88_hypotheses_case).
  set (clk := fun i => (k * Z.of_nat i)%Z).
  assert (H0 : app_run_to ex_pay clk (fun _ => "") (fun _ => "") (fun _ => 0%Z) X0 mappers (fun _ _ => false) (fun _ _ => []) 9 ex_ah0 rd buffer 0 cap [] (complete ex_recs)
    [] (cinit (app_start rd 0 [] (complete ex_recs)))) by apply cr_nil.
  destruct (C91_completes _ _ _ _ _ _ _ _ _ _ _ _ _ _ rd [] ex_recs _ _ Hc F Sn H0) as (tr & s & H & D & _).
  destruct D as (_ & _ & _ & x & D1 & D2). cbn [List.app] in H.
  exists rd, (mkAttempt clk buffer 0 cap (complete ex_recs) tr s x). split; [reflexivity|].
  split; [split; [now right|split; [exact H|exact D1]]|]. split; [exact D2|]. split; [reflexivity|]. split; [reflexivity|]. unfold clk. cbn [a_clk]. lia.
Qed.
Example C114_hypotheses_case : exists rd rd' a b,
  tuned (ex_conf "none" "alert" "1") (ex_conf "none" "alert" "2") /\ policies_in (ex_conf "none" "alert" "1") "/pol" /\ monitor_is (ex_conf "none" "alert" "1") NoneType /\
  monitor_is (ex_conf "none" "alert" "2") NoneType /\ ex_init ["a.yaml"] "none" "alert" "1" = Ok (Some rd) /\ ex_init ["a.yaml"] "none" "alert" "2" = Ok (Some rd') /\
  rx_attempted rd ex_recs a /\ x_open (a_exp a) = false /\ rx_attempted rd' ex_recs b /\ x_open (a_exp b) = false /\
  a_buffer a <> a_buffer b /\ a_cap a <> a_cap b /\ a_clk a 1 <> a_clk b 1 /\ benign ex_ah0 /\ SpecReader.Sane false ex_recs.
Proof.
  destruct (tx_life "1" 2 1 1%Z ltac:(auto)) as (rd & a & Hi & A & Ca & B1 & B2 & B3); [vm_compute; repeat constructor|].
  destruct (tx_life "2" 7 3 5%Z ltac:(auto)) as (rd' & b & Hi' & B & Cb & B1' & B2' & B3'); [vm_compute; repeat constructor|].
  exists rd, rd', a, b.
  assert (Mn : forall c, monitor_is (ex_conf "none" "alert" c) NoneType) by (intros c; left; exists "none"; split; [reflexivity|left; left; reflexivity]).
  split. { intros k K1 K2. unfold ex_conf. cbn [mget]. rewrite (proj2 (seqb_neq k "concurrency") K1). reflexivity. }
  split; [split; [reflexivity|discriminate]|]. split; [apply Mn|]. split; [apply Mn|]. split; [exact Hi|]. split; [exact Hi'|].
  split; [exact A|]. split; [exact Ca|]. split; [exact B|]. split; [exact Cb|]. rewrite B1, B1', B2, B2', B3, B3'.
  split; [discriminate|]. split; [discriminate|]. split; [discriminate|]. split; [|exact (proj1 C88_hypotheses_case)].
  intros x f r Hf. discriminate.
Qed.

(** Without the hypothesis on the rate filter the claim would be false: which repeats are suppressed depends on when they are processed.  Two complete lives on
    the same records with the same configuration throughout, one with a slow clock and one with a fast one, export different numbers. *)
Definition tx_fconf : gomap string := [("filter.enabled", "on"); ("filter.maxage", "1")].
Definition tx_conf : gomap cval := [("mode", CStr "enrich")].
Definition tx_attempted rd := attempted ex_pay (fun _ => "") (fun _ => "") (fun _ => 0%Z) X0 mappers (fun _ _ => false) (fun _ _ => []) 9 ex_ah0 rd tx_fconf.
Theorem C114_filter_matters : exists rd a b,
  no_policies tx_conf /\ InitModel.init (sf_ops X0 mappers) (fun _ _ => false) (fun _ _ => []) 9 (ex_host []) tx_conf = Ok (Some rd) /\
  SpecReader.Sane false ex_recs /\ tx_attempted rd ex_recs a /\ x_open (a_exp a) = false /\ tx_attempted rd ex_recs b /\ x_open (a_exp b) = false /\
  (forall k, (a_clk a k <= a_clk a (S k))%Z) /\ (forall k, (a_clk b k <= a_clk b (S k))%Z) /\ a_buffer a = a_buffer b /\ a_cap a = a_cap b /\
  length (concat (x_batches (a_exp a))) = 1 /\ length (concat (x_batches (a_exp b))) = 2.
Proof.
  assert (Hn : no_policies tx_conf) by (intros d H; discriminate).
  assert (Sn : SpecReader.Sane false ex_recs) by exact (proj1 C88_hypotheses_case).
  assert (F : match InitModel.init (sf_ops X0 mappers) (fun _ _ => false) (fun _ _ => []) 9 (ex_host []) tx_conf with Ok (Some rd) => Nat.ltb 0 (Z.to_nat (c_concurrency (rd_conf rd))) = true | _ => False end) by (vm_compute; reflexivity).
  destruct (InitModel.init (sf_ops X0 mappers) (fun _ _ => false) (fun _ _ => []) 9 (ex_host []) tx_conf) as [[rd|]| | |] eqn:Ei; [|destruct F|destruct F|destruct F|destruct F].
  apply Nat.ltb_lt in F.
  assert (L : forall clk, exists a, tx_attempted rd ex_recs a /\ x_open (a_exp a) = false /\ a_clk a = clk /\ a_buffer a = 2%Z /\ a_cap a = 1).
  { intros clk.
    assert (H0 : app_run_to ex_pay clk (fun _ => "") (fun _ => "") (fun _ => 0%Z) X0 mappers (fun _ _ => false) (fun _ _ => []) 9 ex_ah0 rd 2 0 1 tx_fconf (complete ex_recs)
      [] (cinit (app_start rd 0 tx_fconf (complete ex_recs)))) by apply cr_nil.
    destruct (C91_completes _ _ _ _ _ _ _ _ _ _ _ _ _ _ rd tx_fconf ex_recs _ _ ltac:(auto) F Sn H0) as (tr & s & H & D & _).
    destruct D as (_ & _ & _ & x & D1 & D2). cbn [List.app] in H.
    exists (mkAttempt clk 2 0 1 (complete ex_recs) tr s x). split; [split; [now right|split; [exact H|exact D1]]|]. auto. }
  destruct (L (fun _ => 0%Z)) as (a & A & Ca & A1 & A2 & A3). destruct (L (fun k => (2000000000 * Z.of_nat k)%Z)) as (b & B & Cb & B1 & B2 & B3).
  exists rd, a, b. split; [exact Hn|]. split; [reflexivity|]. split; [exact Sn|]. split; [exact A|]. split; [exact Ca|]. split; [exact B|]. split; [exact Cb|].
  split; [rewrite A1; lia|]. split; [rewrite B1; lia|]. split; [congruence|]. split; [congruence|].
  destruct (life_filtered _ _ _ _ _ _ _ _ _ _ _ _ _ _ _ _ Hn Ei Sn A Ca) as (st & ds & R & Ea).
  destruct (life_filtered _ _ _ _ _ _ _ _ _ _ _ _ _ _ _ _ Hn Ei Sn B Cb) as (st' & ds' & R' & Eb).
  rewrite Ea, Eb, !map_length, A1, B1. rewrite R in R'. injection R' as <- <-.
  assert (Q : match ReaderModel.reader_run false ReaderModel.reader_init ex_recs with
    | Ok (_, ds0) => length (concat (fl_out (handle_all (fun _ => 0%Z) (fun _ => "") (fun _ => "") (fun _ => 0%Z) (mkFlt (f_conf tx_fconf) [[]]) (events ex_pay ds0)))) = 1 /\
        length (concat (fl_out (handle_all (fun k => (2000000000 * Z.of_nat k)%Z) (fun _ => "") (fun _ => "") (fun _ => 0%Z) (mkFlt (f_conf tx_fconf) [[]]) (events ex_pay ds0)))) = 2
    | _ => False end) by (vm_compute; auto).
  rewrite R in Q. exact Q.
Qed.
Print Assumptions C114_filter_matters.
