(** * Property C107: what a running pipeline holds is bounded. *)
From Coq Require Import Lia.
From Verif Require ReaderModel SpecReader DriverModel.
From Verif Require Import GoBase Predicates FlatRecord FieldTables Samples SigmaModel EngineModel EngineFlat PoolModel InitModel FlattenModel ExportModel AppModel ChainModel SpecChain
  SpecRest OtelPipe SpecOtelPipe SpecBound BoundFacts Props_Init Props_App Props_Chain Props_OtelPipe.
Local Open Scope nat_scope.

(** C107.  At every moment of every run - however long the stream, however slow the policies or the target, however many policy updates - the records
    between the source and the exporter's target are at most three channels full, one in the reader, one and twice the concurrency in the policy
    engine, and less than a batch in the exporter (none if the batch size is not positive); and the worker goroutines, of all interpreters ever installed, are at most as
    many as configured. *)
Theorem C107_bounded :
  forall P clk ipstr jsonsvcs hash X M pmatch ord n ah rd buffer xstart cap fconf rs acts tr s,
  source_of rs acts -> SpecReader.Sane false rs ->
  app_run_to P clk ipstr jsonsvcs hash X M pmatch ord n ah rd buffer xstart cap fconf acts tr s ->
  let conc := Z.to_nat (c_concurrency (rd_conf rd)) in
  in_flight s <= 3 * cap + 1 + (1 + 2 * conc) + Z.to_nat (buffer - 1) /\
  exists e, c_st s 2 = DEng e /\ workers (fst e) <= conc.
Proof.
  intros P clk ipstr jsonsvcs hash X M pmatch ord n ah rd buffer xstart cap fconf rs acts tr s A Sn H.
  exact (flight_bound P clk ipstr jsonsvcs hash X M pmatch ord n ah rd buffer xstart cap fconf acts rs tr s A Sn H).
Qed.
(** The OpenTelemetry pipeline, likewise. *)
Theorem C107_bounded_otel :
  forall R ops pmatch ord n applicable add ah rd buffer xstart cap (rs : list R) acts tr s,
  o_source rs acts -> o_run_to ops pmatch ord n applicable add ah rd buffer xstart cap acts tr s ->
  let conc := Z.to_nat (c_concurrency (rd_conf rd)) in
  o_in_flight s <= 2 * cap + (1 + 2 * conc) + Z.to_nat (buffer - 1) /\
  exists e, c_st s 1 = OEng e /\ workers (fst e) <= conc.
Proof.
  intros R ops pmatch ord n applicable add ah rd buffer xstart cap rs acts tr s A H.
  exact (o_flight_bound ops pmatch ord n applicable add ah rd buffer xstart cap acts rs tr s A H).
Qed.
(** The reader's tables know exactly the processes announced since the last header, so never more of them than process records since then; a
    header empties them. *)
Theorem C107_tables :
  forall rs rd ds s, SpecReader.Sane false rs -> ReaderModel.reader_run false ReaderModel.reader_init rs = Ok (rd, ds) ->
  SpecReader.Since SpecReader.is_header rs s ->
  (forall id, ReaderModel.get_proc id (ReaderModel.r_tab rd) <> None <-> exists p, In (ReaderModel.RProc p) s /\ ReaderModel.p_oid p = id) /\
  (forall ids, knows (ReaderModel.r_tab rd) ids ->
     length ids <= length (List.filter (fun r => match r with ReaderModel.RProc _ => true | _ => false end) s)).
Proof.
  intros rs rd ds s Sn R Si. split; [exact (known_iff rs rd ds s Sn R Si)|]. intros ids. exact (known_len rs rd ds s ids Sn R Si).
Qed.
Theorem C107_header :
  forall rs h rd ds ids, ReaderModel.reader_run false ReaderModel.reader_init (rs ++ [ReaderModel.RHeader h]) = Ok (rd, ds) ->
  knows (ReaderModel.r_tab rd) ids -> ids = [].
Proof. exact header_forgets. Qed.
(** "The memory needed does not grow with the stream" therefore fails: nothing but a header ever removes a process, also not the event of its exit: for every [n] there is a stream
    without a header after which [n] processes are kept. *)
Theorem C107_tables_refuted :
  forall n, exists rs rd ds ids, SpecReader.Sane false rs /\ length rs = 2 * n /\
  ReaderModel.reader_run false ReaderModel.reader_init rs = Ok (rd, ds) /\ knows (ReaderModel.r_tab rd) ids /\ length ids = n.
Proof.
  intros n. destruct (many_known n) as (rd & ds & ids & R & K & L). exists (many n), rd, ds, ids.
  split; [exact (many_sane n)|]. split; [|auto]. clear. unfold many.
  assert (G : forall (f : nat -> list ReaderModel.rec) l, (forall k, length (f k) = 2) -> length (flat_map f l) = 2 * length l).
  { intros f l Hf. induction l as [|k l IH]; [reflexivity|]. cbn [flat_map length]. rewrite app_length, Hf, IH. lia. }
  rewrite G by reflexivity. rewrite seq_length. reflexivity.
Qed.

(** A run of the pipeline of C91's example (capacity 1): the first record is on its way. *)
Notation ex_src := (map DriverModel.ASend ex_recs).
Example C107_case : exists rd tr s, ex_init ["a.yaml"] "local" "alert" "1" = Ok (Some rd) /\ source_of ex_recs ex_src /\ SpecReader.Sane false ex_recs /\
  ex_runs rd ex_src tr s /\ 1 <= in_flight s.
Proof.
  pose proof ex_first_step as F. destruct (ex_init ["a.yaml"] "local" "alert" "1") as [[rd|]| | |] eqn:E; try destruct F. clear H0.
  assert (K : exists r l, ex_recs = r :: l) by (unfold ex_recs; eauto). destruct K as (r & l & K).
  exists rd. eexists ([] ++ [(0, TOut (MRec r))]), _. split; [reflexivity|]. split; [left; reflexivity|]. split; [exact (proj1 C88_hypotheses_case)|]. split.
  - eapply cr_snoc; [apply cr_nil|]. apply (cs_out _ _ _ 0 (MRec r) (DDrv (map DriverModel.ASend l))); [reflexivity| |reflexivity|apply le_n].
    cbn [c_st cinit app_start]. rewrite K. apply as_drv, ds_send.
  - unfold in_flight. exact (le_n_S _ _ (Nat.le_0_l _)).
Qed.
Example C107_tables_case : exists s, SpecReader.Since SpecReader.is_header (many 2) s /\ SpecReader.Sane false (many 2).
Proof.
  exists (many 2). split; [|exact (many_sane 2)]. split; [|left; reflexivity].
  intros a Ha [hd ->]. cbn in Ha. repeat destruct Ha as [Ha|Ha]; try discriminate Ha. exact Ha.
Qed.
Print Assumptions C107_bounded.
Print Assumptions C107_bounded_otel.
Print Assumptions C107_tables.
Print Assumptions C107_header.
Print Assumptions C107_tables_refuted.
