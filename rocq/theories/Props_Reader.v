(** * Properties C28-C30, C56, C57: entity tables, process ancestry, reader, processor. *)
From Verif Require Import GoBase ReaderModel SpecReader ReaderFacts ReaderFacts2 ReaderFacts3.

(** C28.  After any history of insertions and resets, looking up a container, a pod, a file or a
    process gives the one in force since the last reset ([Latest], [ProcInForce] in SpecReader). *)
Theorem C28_tables :
  forall os s t, t_run t_new os = Ok t -> Since is_reset os s -> forall id oi fi,
  Latest (a_cont ann_top id) s (get_cont id t) /\ Latest (a_pod ann_top id) s (get_pod id t) /\
  Latest (a_file ann_top fi) s (get_file fi t) /\ ProcInForce ann_top s oi (get_proc oi t).
Proof. exact tables_spec. Qed.
(** Every history of insertions with proper states runs; the part since the last reset exists and
    is unique, and so is what is in force. *)
Theorem C28_total :
  forall os, (forall id, ~ In (TPtree id) os) ->
  (forall id p, In (TProc id p) os -> p_state p = 0%Z \/ p_state p = 1%Z \/ p_state p = 2%Z) ->
  exists t, t_run t_new os = Ok t.
Proof. exact tables_total. Qed.
Theorem C28_unique :
  forall (os s s' : list top), Since is_reset os s -> Since is_reset os s' -> s = s' /\
  forall B (f : top -> option B) o o', Latest f s o -> Latest f s' o' -> o = o'.
Proof. intros os s s' H H'. pose proof (Since_fun _ _ _ _ H H') as <-. split; auto. intros B f. exact (Latest_fun f s). Qed.

(** C29.  The ancestry returned is the one of the first look-up of that process since the last
    reset; at the first look-up it is exactly the current one. *)
Theorem C29_current :
  forall os s t id l, t_run t_new os = Ok t -> Since is_reset os s -> ~ In (TPtree id) s ->
  (Ancestry ann_top s id l <-> exists t', get_ptree id t = Ok (t', l)).
Proof. exact ptree_current. Qed.
Theorem C29_later_lookups :
  forall os s t id t' l, t_run t_new os = Ok t -> Since is_reset os s -> get_ptree id t = Ok (t', l) ->
  exists s1 s2, s ++ [TPtree id] = s1 ++ TPtree id :: s2 /\ ~ In (TPtree id) s1 /\ Ancestry ann_top s1 id l.
Proof. exact ptree_lookup. Qed.
(** The computation goes on for ever (at every recursion depth) iff going up the parents reaches a
    process that is its own ancestor. *)
Theorem C29_terminates :
  forall os s t id, t_run t_new os = Ok t -> Since is_reset os s -> ~ In (TPtree id) s ->
  (get_ptree id t = NoFuel <-> exists q, (q = id \/ Above ann_top s id q) /\ Above ann_top s q q) /\
  (get_ptree id t = NoFuel -> forall n, proc_prov n id t = None).
Proof. exact ptree_diverges. Qed.

(** C30.  One delivery per deliverable record, in order, each to the handler of its kind. *)
Theorem C30_order :
  forall ent rs st ds, reader_run ent reader_init rs = Ok (st, ds) ->
  map (fun d => x_rec (fst d)) ds = map tidied_rec (filter (deliverable ent) rs) /\
  Forall (fun d => call_for (x_rec (fst d)) (snd d)) ds.
Proof. intros ent rs st ds E. exact (proj2 (reader_inv _ _ _ _ E)). Qed.
(** Each event comes with the entities in force (see [EventCtx]). *)
Theorem C30_event :
  forall ent h r rest st ds s id, reader_run ent reader_init (h ++ r :: rest) = Ok (st, ds) -> Since is_header h s ->
  subject r = Some id -> exists x c, nth_error ds (count ent h) = Some (x, c) /\ EventCtx ent h s r id x.
Proof. exact event_spec. Qed.
(** And so do process and file records, for handlers that ask for entities; the rest come bare. *)
Theorem C30_process :
  forall h p rest st ds s, reader_run true reader_init (h ++ RProc p :: rest) = Ok (st, ds) -> Since is_header h s ->
  exists x c, nth_error ds (count true h) = Some (x, c) /\ ProcessCtx h s p x.
Proof. exact process_spec. Qed.
Theorem C30_file :
  forall h f rest st ds s, reader_run true reader_init (h ++ RFile f :: rest) = Ok (st, ds) -> Since is_header h s ->
  exists x c, nth_error ds (count true h) = Some (x, c) /\ FileCtx h s f x.
Proof. exact file_spec. Qed.
Theorem C30_plain :
  forall ent h r rest st ds, reader_run ent reader_init (h ++ r :: rest) = Ok (st, ds) ->
  deliverable ent r = true -> subject r = None -> (forall p, r <> RProc p) -> (forall f, r <> RFile f) ->
  exists x c, nth_error ds (count ent h) = Some (x, c) /\ PlainCtx h r x.
Proof. exact plain_spec. Qed.
(** The ancestry is the current one if no process record followed the first event about the process. *)
Theorem C30_ancestry_partial :
  forall ent h s1 s2 r rest st ds id, ent = false ->
  reader_run ent reader_init (h ++ r :: rest) = Ok (st, ds) -> Since is_header h (s1 ++ s2) ->
  subject r = Some id -> (forall x, In x s1 -> subject x <> Some id) -> (forall p, ~ In (RProc p) s2) ->
  exists x c, nth_error ds (count ent h) = Some (x, c) /\
    match x_proc x with Some _ => exists l, x_ptree x = Some l /\ Ancestry ann_rec (s1 ++ s2) id l | None => x_ptree x = None end.
Proof. exact event_current. Qed.
(** Otherwise it may be stale: after an update of the process, events come with the new process but
    with its old self at the head of the ancestry. *)
Theorem C30_ancestry_refuted :
  forall p q n1 n2 hd, p_oid q = p_oid p -> p_state p = 0%Z -> p_state q = 1%Z -> p_poid p = None ->
  exists st d, reader_run false reader_init [RHeader hd; RProc p; RProcEvt (p_oid p) n1; RProc q; RProcEvt (p_oid p) n2] = Ok (st, d) /\
  map (fun d => (x_proc (fst d), x_ptree (fst d))) d = [(Some (tidied p), Some [tidied p]); (Some (tidied q), Some [tidied p])].
Proof. exact stale_ancestry. Qed.

(** C56.  The reader gets through every sane stream. *)
Theorem C56_total_partial : forall ent rs, Sane ent rs -> exists st ds, reader_run ent reader_init rs = Ok (st, ds).
Proof. exact reader_total. Qed.
(** Other streams crash it: a process that is its own parent (unbounded recursion), an unknown
    state, and, with entities enabled, a file without container reference. *)
Theorem C56_total_refuted :
  (forall p n hd, p_poid p = Some (p_oid p) -> p_state p = 0%Z ->
    reader_run false reader_init [RHeader hd; RProc p; RProcEvt (p_oid p) n] = NoFuel) /\
  (forall p ent hd, p_state p <> 0%Z -> p_state p <> 1%Z -> p_state p <> 2%Z ->
    reader_run ent reader_init [RHeader hd; RProc p] = Panic) /\
  (forall f hd, f_cont f = INil -> reader_run true reader_init [RHeader hd; RFile f] = Panic).
Proof. exact (conj crash_cycle (conj crash_state crash_file)). Qed.

(** C57.  A processor fed with what a reader delivered hands over processes, files and events as the
    reader did, in order. *)
Theorem C57_relay_partial :
  forall ent rs st st' ds, reader_run ent st rs = Ok (st', ds) ->
  filter (fun d => joined (fst d)) (processor_run true (map fst ds)) = filter (fun d => joined (fst d)) ds.
Proof. exact relay. Qed.
(** With entities off it hands over exactly the events. *)
Theorem C57_events_only :
  forall ent rs st st' ds, reader_run ent st rs = Ok (st', ds) -> processor_run false (map fst ds) = filter (fun d => is_event (fst d)) ds.
Proof. exact relay_events. Qed.
(** Containers, pods and Kubernetes events become nil. *)
Theorem C57_relay_refuted :
  forall ent rs st st' ds x c, reader_run ent st rs = Ok (st', ds) -> In (x, c) ds ->
  match x_rec x with
  | RCont _ => processor_step true x = Some (HCont None)
  | RPod _ => processor_step true x = Some (HPod None)
  | RK8s _ => processor_step true x = Some (HK8s None)
  | _ => True end.
Proof. exact relay_lost. Qed.

Print Assumptions C28_tables. Print Assumptions C28_total. Print Assumptions C28_unique.
Print Assumptions C29_current. Print Assumptions C29_later_lookups. Print Assumptions C29_terminates.
Print Assumptions C30_order. Print Assumptions C30_event. Print Assumptions C30_process. Print Assumptions C30_file.
Print Assumptions C30_plain. Print Assumptions C30_ancestry_partial. Print Assumptions C30_ancestry_refuted.
Print Assumptions C56_total_partial. Print Assumptions C56_total_refuted.
Print Assumptions C57_relay_partial. Print Assumptions C57_events_only. Print Assumptions C57_relay_refuted.

(** Non-vacuity: a stream with two headers, a parent chain, containers and pods. *)
Definition exR_init : process := mkProc (1, 1)%Z CREATED None " init " "" INil 0.
Definition exR_sh : process := mkProc (2, 7)%Z REUP (Some (1, 1)%Z) "sh" "-c x " (IStr "c1") 1.
Definition exR_sh' : process := mkProc (2, 7)%Z MODIFIED (Some (1, 1)%Z) "ls" "" (IStr "c1") 2.
Definition exR_stream : list rec :=
  [RHeader 1; RProc exR_sh; RHeader 2; RPod (mkPod "p1" 0); RCont (mkCont "c1" (IStr "p1") 3); RProc exR_init; RProc exR_sh;
   RFileEvt (2, 7)%Z "f" (Some "g") 0; RFile (mkFile "f" INil 5); RNetEvt 3; RFileFlow (2, 7)%Z "f" 1; RNetFlow (9, 9)%Z 2].
Example ex_reader :
  exists st, reader_run false reader_init exR_stream = Ok (st,
    [(mkCtx (RFileEvt (2, 7)%Z "f" (Some "g") 0) (Some 2) (Some (mkPod "p1" 0)) (Some (mkCont "c1" (IStr "p1") 3)) (Some (tidied exR_sh)) (Some [tidied exR_sh; tidied exR_init]) None None None,
      HFileEvt (2, 7)%Z "f" (Some "g") 0);
     (mkCtx (RFileFlow (2, 7)%Z "f" 1) (Some 2) (Some (mkPod "p1" 0)) (Some (mkCont "c1" (IStr "p1") 3)) (Some (tidied exR_sh)) (Some [tidied exR_sh; tidied exR_init]) (Some (mkFile "f" INil 5)) None None,
      HFileFlow (2, 7)%Z "f" 1);
     (mkCtx (RNetFlow (9, 9)%Z 2) (Some 2) None None None None None None None, HNetFlow (9, 9)%Z 2)]).
Proof. eexists. vm_compute. reflexivity. Qed.
Example ex_since : Since is_header exR_stream (skipn 3 exR_stream).
Proof.
  split. { intros a Ha [h ->]. cbn in Ha. repeat (destruct Ha as [Ha|Ha]; [discriminate|]). destruct Ha. }
  right. exists (firstn 2 exR_stream), (RHeader 2). split; [now exists 2|reflexivity].
Qed.
Example ex_tables :
  exists t, t_run t_new [TProc (1, 1)%Z exR_init; TReset; TProc (2, 7)%Z exR_sh'; TProc (2, 7)%Z exR_sh; TPtree (2, 7)%Z; TProc (1, 1)%Z exR_init] = Ok t /\
    get_proc (2, 7)%Z t = Some exR_sh' /\ get_proc (1, 1)%Z t = Some exR_init /\ exists t', get_ptree (2, 7)%Z t = Ok (t', [exR_sh']).
Proof. eexists. split; [vm_compute; reflexivity|]. split; [reflexivity|]. split; [reflexivity|]. eexists. reflexivity. Qed.
(** A sane stream: one process without parent, two events. *)
Example ex_sane : Sane true [RHeader 0; RProc exR_init; RProcEvt (1, 1)%Z 0; RFile (mkFile "f" INull 0)].
Proof.
  constructor.
  - intros p [H|[H|[H|[H|[]]]]]; try discriminate. injection H as <-. left. reflexivity.
  - intros f [H|[H|[H|[H|[]]]]]; try discriminate. injection H as <-. right. discriminate.
  - intros h r rest s q E Hs Hq.
    assert (Hin : forall x, In x (seen s r) -> x = RProc exR_init \/ forall p, x <> RProc p).
    { intros x Hx. assert (Hx' : In x (h ++ r :: rest)).
      { assert (In x s \/ x = r) as [Hi|Hi] by (destruct r; cbn in Hx; auto; apply in_app_or in Hx as [?|[?|[]]]; auto).
        - apply in_or_app. left. destruct Hs as [_ [->|(a & b & _ & ->)]]; auto. apply in_or_app. right. now right.
        - subst. apply in_elt. }
      rewrite <- E in Hx'. destruct Hx' as [<-|[<-|[<-|[<-|[]]]]]; auto; right; discriminate. }
    assert (Hp : forall id p, ProcInForce ann_rec (seen s r) id (Some p) -> p_poid p = None).
    { intros id p (m & c & rr & Hm & Hc & Hr & Ho).
      assert (P : forall st o, Latest (a_proc ann_rec id st) (seen s r) o -> o = Some p -> p_poid p = None).
      { intros st o [[-> _]|(s1 & a & s2 & E' & Ha & _ & _)] Eo; [discriminate|]. destruct (Hin a) as [->|Hn]; [rewrite E'; apply in_elt| |].
        - rewrite Eo in Ha. cbn in Ha. destruct (_ && _); [|discriminate]. now injection Ha as <-.
        - rewrite (no_proc_quiet _ _ _ Hn) in Ha. congruence. }
      destruct m as [m|]; [apply (P _ _ Hm); congruence|]. destruct c as [c|]; [apply (P _ _ Hc); congruence|apply (P _ _ Hr); congruence]. }
    inversion Hq as [id p q' P E'|id p q' r' P E' _]; subst; rewrite (Hp _ _ P) in E'; discriminate.
Qed.
