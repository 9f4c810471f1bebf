(** * Properties C31, C58-C61: rate filter, attributes of flattened events, semantic hash, Falco names,
    filter configuration. *)
From Verif Require Import GoBase Predicates FlatRecord FieldTables Samples EngineModel FlattenModel SpecFlatten FlattenFacts FlattenFacts2.
From Coq Require Import Lia.

(** C31.  Over any history and any clock that does not go back: an event is suppressed iff an event
    with the same hash was let through less than [ttl] before ([recent_repeat] in SpecFlatten). *)
Theorem C31_suppressed_iff_recent_repeat :
  forall clk ttl hs s tr, (forall n, (clk n <= clk (S n))%Z) -> f_run clk ttl f_new hs = (s, tr) ->
  map hash_of tr = hs /\
  forall j h b t, happened tr j h b t -> (b = true <-> recent_repeat ttl tr j h t).
Proof. intros clk ttl hs s tr M. exact (suppress clk ttl M hs s tr). Qed.
Print Assumptions C31_suppressed_iff_recent_repeat.
(** What is kept: one entry per hash, with a counter for exactly the hashes kept, none expired when
    the last call began. *)
Theorem C31_bookkeeping :
  forall clk ttl hs s tr h s' b, (forall n, (clk n <= clk (S n))%Z) ->
  f_run clk ttl f_new hs = (s, tr) -> test_and_add clk ttl h s = (s', b) ->
  NoDup (map fst (f_q s')) /\ (forall k, zget k (f_m s') <> None <-> In k (map fst (f_q s'))) /\
  ((0 < ttl)%Z -> forall k t, In (k, t) (f_q s') -> (clk (f_n s) - t < ttl)%Z).
Proof. intros clk ttl hs s tr h s' b M. exact (retained clk ttl M hs s tr h s' b). Qed.
Print Assumptions C31_bookkeeping.
(** The count of a hash: its occurrences since the last one let through, 0 when that has expired. *)
Theorem C31_count :
  forall clk ttl hs s tr h, (forall n, (clk n <= clk (S n))%Z) -> f_run clk ttl f_new hs = (s, tr) ->
  let now := clk (f_n (evict clk ttl (f_q s) (f_m s) (f_n s)) - 1) in
  (exists i t, happened tr i h false t /\ (now - t < ttl)%Z /\ f_count clk ttl h s = occurrences h (skipn i tr) /\
               forall j t', i < j -> ~ happened tr j h false t') \/
  (f_count clk ttl h s = 0%Z /\ forall i t, happened tr i h false t -> (ttl <= now - t)%Z).
Proof. intros clk ttl hs s tr h M. exact (count_correct clk ttl M hs s tr h). Qed.
Print Assumptions C31_count.
(** Every output channel gets, in order, the records of the events that were not suppressed; with the
    filter off, of all events. *)
Theorem C31_output :
  forall clk ipstr jsonsvcs hash ttl l n s tr, f_run clk ttl f_new (map (consults ipstr jsonsvcs hash) l) = (s, tr) ->
  fl_out (handle_all clk ipstr jsonsvcs hash (mkFlt (Some (ttl, f_new)) (repeat [] n)) l) =
  repeat (kept (map (fun xe => flatten ipstr jsonsvcs (fst xe) (snd xe)) l) tr) n.
Proof. intros clk i j hash ttl l n s tr H. rewrite (handle_all_run clk i j hash ttl l f_new [] n s tr H). reflexivity. Qed.
Print Assumptions C31_output.
Theorem C31_off :
  forall clk ipstr jsonsvcs hash l n,
  fl_out (handle_all clk ipstr jsonsvcs hash (mkFlt None (repeat [] n)) l) =
  repeat (map (fun xe => flatten ipstr jsonsvcs (fst xe) (snd xe)) l) n.
Proof. intros clk i j hash l n. rewrite (handle_all_off clk i j hash l [] n). reflexivity. Qed.
Print Assumptions C31_off.
(** A clock with ticks of 10, age 25: the repeat at once is suppressed, the one after expiry is not. *)
Example C31_case : forall n, (Z.of_nat n * 10 <= Z.of_nat (S n) * 10)%Z.
Proof. intros; lia. Qed.
Example C31_case_run : exists s, f_run (fun n => Z.of_nat n * 10)%Z 25%Z f_new [Some 7%Z; None; Some 7%Z; Some 8%Z; Some 7%Z; Some 7%Z] =
  (s, [Some (7, false, 0); None; Some (7, true, 10); Some (8, false, 30); Some (7, false, 60); Some (7, true, 80)])%Z.
Proof. eexists; vm_compute; reflexivity. Qed.

(** C58.  Every exported attribute, read from the flattened record, is what it stands for in the event
    and the entities it was joined with ([meaning] in SpecFlatten). *)
Theorem C58_attributes :
  forall X ipstr jsonsvcs x e name v, In (name, v) (meaning X ipstr jsonsvcs x e) ->
  map_attr X mappers name (flatten ipstr jsonsvcs x e) = v.
Proof. exact fields. Qed.
Print Assumptions C58_attributes.
(** All exported attributes have a meaning there. *)
Theorem C58_all_attributes : forall X ipstr jsonsvcs x e, map fst (meaning X ipstr jsonsvcs x e) = map fst exported_entries.
Proof. exact meaning_names. Qed.
Print Assumptions C58_all_attributes.
(** The record also carries what no attribute shows. *)
Theorem C58_unnamed : forall ipstr jsonsvcs x e,
  (forall a z, In (a, z) (unnamed_numbers x e) -> get_int (fr_slots (flatten ipstr jsonsvcs x e)) a SYSFLOW_SRC = z) /\
  (forall a s, In (a, s) (unnamed_texts x e) -> get_str (fr_slots (flatten ipstr jsonsvcs x e)) a SYSFLOW_SRC = s) /\
  fr_ptree (flatten ipstr jsonsvcs x e) = ancestors x e.
Proof. exact unnamed. Qed.
Print Assumptions C58_unnamed.
Definition ex_x : fctx := mkFCtx (Some (mkFHdr 4 "node" "10.0.0.1" "/mnt/f")) None (Some (mkFCont "c1" " web " "nginx" "i1" 0 true)) (Some proc0)
  (Some [proc0; proc1]) (Some (mkFFile 0 1 102 "AB" "/etc/passwd" None)) None.
Example C58_case : map_attr X0 mappers "sf.file.path" (flatten (fun _ => "") (fun _ => "") ex_x (EvFE (mkFE 5 17 3 0))) = VStr "/etc/passwd"
  /\ map_attr X0 mappers "sf.container.name" (flatten (fun _ => "") (fun _ => "") ex_x (EvFE (mkFE 5 17 3 0))) = VStr "web"
  /\ map_attr X0 mappers "sf.pproc.name" (flatten (fun _ => "") (fun _ => "") ex_x (EvFE (mkFE 5 17 3 0))) = VStr "init".
Proof. repeat split; vm_compute; reflexivity. Qed.

(** C59.  Events with the same semantics hash the same bytes. *)
Theorem C59_same_semantics :
  forall ipstr jsonsvcs x e x' e', semantics_of x e = semantics_of x' e' ->
  sem_bytes (flatten ipstr jsonsvcs x e) = sem_bytes (flatten ipstr jsonsvcs x' e').
Proof. intros i j x e x' e' H. rewrite !(sem_bytes_of i j X0), H. reflexivity. Qed.
Print Assumptions C59_same_semantics.
(** Conversely for records of the same shape, with executables and arguments of the same lengths. *)
Theorem C59_distinguishes_partial :
  forall ipstr jsonsvcs x e x' e', let m := semantics_of x e in let m' := semantics_of x' e' in
  int64s m -> int64s m' -> same_shape m m' -> slen (sm_exe m) = slen (sm_exe m') -> slen (sm_args m) = slen (sm_args m') ->
  sem_bytes (flatten ipstr jsonsvcs x e) = sem_bytes (flatten ipstr jsonsvcs x' e') -> m = m'.
Proof. intros i j x e x' e' m m' I I' S L L' H. rewrite !(sem_bytes_of i j X0) in H. apply bytes_inj; assumption. Qed.
Print Assumptions C59_distinguishes_partial.
(** Without the lengths it fails: executable and arguments are hashed without a separator, so that, for
    every hash function, the second of two different events is dropped. *)
Definition ex_p (exe args : string) : fctx := mkFCtx None None None
  (Some (mkProc 0 (mkOid 1 1) None 0 exe args 0 "" 0 "" false false None)) None None None.
Definition ex_pe : fevent := EvPE (mkPE 5 1 1 0).
Theorem C59_distinguishes_refuted :
  semantics_of (ex_p "/bin/a" "bc") ex_pe <> semantics_of (ex_p "/bin/ab" "c") ex_pe /\
  forall (H : string -> Z) (clk : nat -> Z) ttl, (clk 1%nat - clk 0%nat < ttl)%Z ->
  fl_out (handle_all clk (fun _ => "") (fun _ => "") (fun fr => H (sem_bytes fr)) (mkFlt (Some (ttl, f_new)) [[]])
    [(ex_p "/bin/a" "bc", ex_pe); (ex_p "/bin/ab" "c", ex_pe)]) = [[flatten (fun _ => "") (fun _ => "") (ex_p "/bin/a" "bc") ex_pe]].
Proof.
  split; [vm_compute; congruence|]. intros H clk ttl L.
  assert (E : sem_bytes (flatten (fun _ => "") (fun _ => "") (ex_p "/bin/ab" "c") ex_pe) =
              sem_bytes (flatten (fun _ => "") (fun _ => "") (ex_p "/bin/a" "bc") ex_pe)) by (vm_compute; reflexivity).
  pose (h := H (sem_bytes (flatten (fun _ => "") (fun _ => "") (ex_p "/bin/a" "bc") ex_pe))).

  assert (R : exists s tr, f_run clk ttl f_new [Some h; Some h] = (s, tr) /\ exists t1 t2, tr = [Some (h, false, t1); Some (h, true, t2)]).
  { clearbody h. unfold f_run, test_and_add, f_new. cbn [f_q f_m f_n evict zget f_add].
    unfold f_add. cbn [f_q f_m f_n zget zset app evict zdel List.filter]. rewrite (proj2 (Z.ltb_lt _ _) L).
    cbn [f_q f_m f_n zget]. rewrite zget_zset, Z.eqb_refl. eauto 10. }
  destruct R as (s & tr & R & t1 & t2 & ->).
  rewrite (C31_output clk _ _ (fun fr => H (sem_bytes fr)) ttl _ 1 s [Some (h, false, t1); Some (h, true, t2)]); [reflexivity|].
  rewrite <- R. unfold consults. cbn [map fst snd ex_pe]. fold ex_pe. rewrite E. reflexivity.
Qed.
Print Assumptions C59_distinguishes_refuted.
Example C59_case : let m := semantics_of (ex_p "/bin/a" "bc") ex_pe in let m' := semantics_of (ex_p "/bin/b" "bc") ex_pe in
  int64s m /\ int64s m' /\ same_shape m m' /\ slen (sm_exe m) = slen (sm_exe m') /\ m <> m' /\
  sem_bytes (flatten (fun _ => "") (fun _ => "") (ex_p "/bin/a" "bc") ex_pe) <> sem_bytes (flatten (fun _ => "") (fun _ => "") (ex_p "/bin/b" "bc") ex_pe).
Proof. vm_compute. intuition congruence. Qed.

(** C60.  Falco names: these read the attribute they stand for, on every record ... *)
Theorem C60_falco_names_partial :
  forall X p fr, In p aliases -> map_attr X mappers (fst p) fr = map_attr X mappers (snd p) fr.
Proof. exact alias_ok. Qed.
Print Assumptions C60_falco_names_partial.
(** ... these another one (fd.name is the file's base name, proc.tty and proc.createtime are the
    parent's, evt.rawres is the record type) ... *)
Theorem C60_falco_names_refuted :
  (forall X p fr, In p misdirected -> map_attr X mappers (fst p) fr = map_attr X mappers (snd p) fr) /\
  (exists x e, map_attr X0 mappers "fd.name" (flatten (fun _ => "") (fun _ => "") x e) <> map_attr X0 mappers "sf.file.path" (flatten (fun _ => "") (fun _ => "") x e)) /\
  (exists x e, map_attr X0 mappers "proc.tty" (flatten (fun _ => "") (fun _ => "") x e) <> map_attr X0 mappers "sf.proc.tty" (flatten (fun _ => "") (fun _ => "") x e)).
Proof.
  split; [exact alias_wrong|]. split; exists ex_x, (EvFE (mkFE 5 17 3 0)); vm_compute; congruence.
Qed.
Print Assumptions C60_falco_names_refuted.
(** ... and these documented names are not known: a rule gets the name itself, whatever the event. *)
Theorem C60_undefined_refuted :
  forall X n fr, In n unsupported -> map_attr X mappers n fr = VStr n.
Proof. exact alias_missing. Qed.
Print Assumptions C60_undefined_refuted.
Example C60_case : length aliases = 51 /\ In ("proc.name", "sf.proc.name") aliases.
Proof. split; vm_compute; [reflexivity|tauto]. Qed.

(** C61.  The filter is on iff filter.enabled is "on"; its age is 24 hours when filter.maxage is absent
    or not a number, otherwise that many seconds, when they fit in an int64 of nanoseconds. *)
Theorem C61_configuration :
  forall conf,
  (filter_config conf <> None <-> mget "filter.enabled" conf = Some "on") /\
  (forall ttl, filter_config conf = Some ttl ->
    match mget "filter.maxage" conf with
    | None => ttl = 86400000000000%Z
    | Some v => match parse_int64 v with
                | None => ttl = 86400000000000%Z
                | Some d => ttl = wrap64 (d * 1000000000) /\ (-9223372036 <= d <= 9223372036 -> ttl = d * 1000000000)%Z
                end
    end).
Proof. exact config_ok. Qed.
Print Assumptions C61_configuration.
(** An age that is not positive, or too large and so negative, suppresses nothing. *)
Theorem C61_nonpositive_age :
  forall clk ttl hs s tr, (forall n, (clk n <= clk (S n))%Z) -> (ttl <= 0)%Z -> f_run clk ttl f_new hs = (s, tr) ->
  forall j h b t, happened tr j h b t -> b = false.
Proof. exact nonpositive_ttl. Qed.
Print Assumptions C61_nonpositive_age.
Example C61_case : filter_config [("filter.enabled", "on"); ("filter.maxage", "9223372037")] = Some (-9223372036709551616)%Z
  /\ filter_config [("filter.enabled", "on"); ("filter.maxage", "60")] = Some 60000000000%Z
  /\ filter_config [("filter.enabled", "ON")] = None.
Proof. repeat split; vm_compute; reflexivity. Qed.
