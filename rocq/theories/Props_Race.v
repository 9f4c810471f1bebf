(** * Props_Race: several exporters and flatteners in one process share a scratch buffer (C95). *)
From Coq Require Import Lia.
From Verif Require Import GoBase GoFacts Predicates FlatRecord FieldTables Samples EngineModel EngineFlat FlattenModel SpecFlatten FlattenFacts FlattenFacts2 EcsModel SpecEcs EcsFacts EcsFacts2 EcsFacts3
  RaceModel SpecRace RaceFacts Props_Ecs.

(** ** C95: document identifiers when several ECS exporters run in one process.  [recs] gives the records of each exporter,
    [buf] what the buffer holds at first, [sched] the interleaving.  An exporter next to exporters that encode nothing (they
    use other formats) gives every record the identifier that is a function of the record (C66) ... *)
Theorem C95_one_encoder X (recs : list (list flatrec)) buf sched k frs : nth_error recs k = Some frs ->
  (forall j l, j <> k -> nth_error recs j = Some l -> l = []) ->
  exists h, nth_error (snd (h_run sched (buf, hashers (map (map (id_ops X)) recs)))) k = Some h /\
    (exists rest, map (encode_id X) frs = (map (x_hashhex X) (h_done h) ++ rest)%list) /\
    (finished h -> map (x_hashhex X) (h_done h) = map (encode_id X) frs).
Proof. exact (one_encoder X recs buf sched k frs). Qed.
(** ... and so do any number of ECS exporters as long as no two of them are encoding at the same time ... *)
Theorem C95_by_turns X (recs : list (list flatrec)) buf sched k frs : nth_error recs k = Some frs ->
  by_turns sched (buf, hashers (map (map (id_ops X)) recs)) ->
  exists h, nth_error (snd (h_run sched (buf, hashers (map (map (id_ops X)) recs)))) k = Some h /\
    (exists rest, map (encode_id X) frs = (map (x_hashhex X) (h_done h) ++ rest)%list) /\
    (finished h -> map (x_hashhex X) (h_done h) = map (encode_id X) frs).
Proof. exact (by_turns_ids X recs buf sched k frs). Qed.
(** ... an exporter that gets its share of the processor finishes ... *)
Theorem C95_finishes X (recs : list (list flatrec)) buf k frs : nth_error recs k = Some frs ->
  exists n, forall sched, n <= count_occ Nat.eq_dec sched k ->
  exists h, nth_error (snd (h_run sched (buf, hashers (map (map (id_ops X)) recs)))) k = Some h /\ finished h.
Proof. exact (finishes X recs buf k frs). Qed.
(** ... under any interleaving the texts that enter an identifier are those of its record and are in place; the numbers are
    numbers of some record some exporter encodes. *)
Theorem C95_blurred_partial X (recs : list (list flatrec)) buf sched k frs h : nth_error recs k = Some frs ->
  nth_error (snd (h_run sched (buf, hashers (map (map (id_ops X)) recs)))) k = Some h ->
  exists done rest calls, frs = (done ++ rest)%list /\ h_done h = map fed calls /\
    Forall2 (fun fr c => blurred (flat_map numbers (map (id_ops X) (concat recs))) (id_ops X fr) c) done calls.
Proof. exact (blurred_ids X recs buf sched k frs h). Qed.
(** Refuted: "a document's identifier depends on its event only".  Two ECS exporters that receive the same two process
    events: there is an interleaving, for every pair of events that differ in time, in which the first exporter gives the
    second event the identifier of the first, so that Elasticsearch keeps one document of the two. *)
Theorem C95_race_refuted X ipstr jsonsvcs x n t : type_names X -> in_int64 (pe_ts n) = true -> in_int64 t = true -> pe_ts n <> t ->
  let e1 := flatten ipstr jsonsvcs x (EvPE n) in let e2 := flatten ipstr jsonsvcs x (EvPE (mkPE t (pe_tid n) (pe_opflags n) (pe_ret n))) in
  id_bytes X e1 <> id_bytes X e2 /\
  forall buf, exists sched h h', snd (h_run sched (buf, hashers (map (map (id_ops X)) [[e1; e2]; [e1; e2]]))) = [h; h'] /\ finished h /\ finished h' /\
    map (x_hashhex X) (h_done h) = [encode_id X e1; encode_id X e1] /\
    forall A (d1 d2 : A), fold_left (fun ix p => es_create ix (fst p) (snd p)) (combine (map (x_hashhex X) (h_done h)) [d1; d2]) [] = [(encode_id X e1, d1)].
Proof. exact (race_ids X ipstr jsonsvcs x n t). Qed.
(** The rate filter's hashes, likewise: a flattener next to none hashes what C31 and C58 say ... *)
Theorem C95_one_flattener (recs : list (list flatrec)) buf sched k frs : nth_error recs k = Some frs ->
  (forall j l, j <> k -> nth_error recs j = Some l -> l = []) ->
  exists h, nth_error (snd (h_run sched (buf, hashers (map (map sem_ops) recs)))) k = Some h /\
    (exists rest, map sem_bytes frs = (h_done h ++ rest)%list) /\ (finished h -> h_done h = map sem_bytes frs).
Proof. exact (one_flattener recs buf sched k frs). Qed.
(** ... but of two flatteners one may suppress an event that has not occurred before: two processes that differ in their
    user, whatever the hash function [H]. *)
Theorem C95_suppressed_refuted (X : sfgo_fns) ipstr jsonsvcs x x' n n' : let m := semantics_of x (EvPE n) in let m' := semantics_of x' (EvPE n') in
  int64s m -> int64s m' ->
  sm_uid m <> sm_uid m' -> sm_exe m = sm_exe m' -> sm_args m = sm_args m' -> sm_gid m = sm_gid m' -> sm_flags m = sm_flags m' -> sm_tty m = sm_tty m' ->
  let e1 := flatten ipstr jsonsvcs x (EvPE n) in let e2 := flatten ipstr jsonsvcs x' (EvPE n') in
  sem_bytes e1 <> sem_bytes e2 /\
  forall buf, exists sched h h', snd (h_run sched (buf, hashers (map (map sem_ops) [[e1; e2]; [e1; e2]]))) = [h; h'] /\ finished h /\ finished h' /\
    forall (H : string -> Z) ttl now, (0 < ttl)%Z ->
    exists s, f_run (fun _ => now) ttl f_new (map (fun b => Some (H b)) (h_done h)) = (s, [Some (H (sem_bytes e1), false, now); Some (H (sem_bytes e1), true, now)]).
Proof. exact (race_filter X ipstr jsonsvcs x x' n n'). Qed.
Print Assumptions C95_one_encoder.
Print Assumptions C95_by_turns.
Print Assumptions C95_finishes.
Print Assumptions C95_blurred_partial.
Print Assumptions C95_race_refuted.
Print Assumptions C95_one_flattener.
Print Assumptions C95_suppressed_refuted.
(** Processes "/bin/sh -c ls" of users 0 and 1000, at times 5 and 6; two exporters, and a schedule by turns that is not
    trivial: the first exporter encodes, then the second. *)
Definition rc_x (uid : Z) : fctx := mkFCtx (Some (mkFHdr 4 "node" "10.0.0.1" "/mnt/f")) None None
  (Some (mkProc 0 (mkOid 17 1) None 1 "/bin/sh" "-c ls" uid "u" 0 "g" false false None)) None None None.
Definition rc_n : procevt := mkPE 5 17 1 0.
Example C95_hypotheses_case : type_names X0 /\ in_int64 (pe_ts rc_n) = true /\ in_int64 6 = true /\ pe_ts rc_n <> 6%Z /\
  (let m := semantics_of (rc_x 0) (EvPE rc_n) in let m' := semantics_of (rc_x 1000) (EvPE rc_n) in
   int64s m /\ int64s m' /\ sm_uid m <> sm_uid m' /\ sm_exe m = sm_exe m' /\ sm_args m = sm_args m' /\ sm_gid m = sm_gid m' /\ sm_flags m = sm_flags m' /\ sm_tty m = sm_tty m').
Proof. repeat split; try reflexivity; discriminate. Qed.
Definition rc_recs : list (list flatrec) := let e := flatten (fun _ => "") (fun _ => "") (rc_x 0) (EvPE rc_n) in [[e]; [e]].
Example C95_turns_case : by_turns (repeat 0 12 ++ repeat 1 12)%list ("", hashers (map (map (id_ops X0)) rc_recs)) /\
  exists h h', snd (h_run (repeat 0 12 ++ repeat 1 12)%list ("", hashers (map (map (id_ops X0)) rc_recs))) = [h; h'] /\ finished h /\ finished h' /\ h_done h = h_done h' /\ length (h_done h) = 1.
Proof.
  split.
  - intros a b E. assert (K : Nat.leb (length a) 24 = true).
    { apply Nat.leb_le. apply (f_equal (@length nat)) in E. rewrite app_length in E. cbn in E. rewrite app_length in E. lia. }
    assert (A : a = firstn (length a) (repeat 0 12 ++ repeat 1 12)%list) by (rewrite E, firstn_app, Nat.sub_diag, firstn_O, app_nil_r, firstn_all; reflexivity).
    rewrite A. clear A E b. revert K. generalize (length a). clear a. intros n K.
    assert (F : forallb (fun n => match snd (h_run (firstn n (repeat 0 12 ++ repeat 1 12)%list) ("", hashers (map (map (id_ops X0)) rc_recs))) with
                          | [h; h'] => match h_cur h, h_cur h' with Some _, Some _ => false | _, _ => true end | _ => false end) (seq 0 25) = true) by (vm_compute; reflexivity).
    rewrite forallb_forall in F. specialize (F n). rewrite in_seq in F. apply Nat.leb_le in K. specialize (F ltac:(lia)).
    remember (snd (h_run _ _)) as hs eqn:Q. clear Q. destruct hs as [|h [|h' [|]]]; try discriminate. unfold one_busy, busy.
    intros i j g g' Ni Nj Bi Bj. destruct i as [|[|i]], j as [|[|j]]; cbn in Ni, Nj; try reflexivity; try (destruct i; discriminate); try (destruct j; discriminate);
      injection Ni as <-; injection Nj as <-; destruct (h_cur h), (h_cur h'); discriminate || contradiction.
  - eexists _, _. split; [vm_compute; reflexivity|]. repeat split; reflexivity.
Qed.
