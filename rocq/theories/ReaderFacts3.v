(** * ReaderFacts3: ancestry of events, counterexamples, the second processor. *)
From Coq Require Import Lia.
From Verif Require Import GoBase ReaderModel SpecReader ReaderFacts ReaderFacts2.

Lemma Latest_app_none {A B} (f : A -> option B) s2 : forall s o, (forall x, In x s2 -> f x = None) -> Latest f s o -> Latest f (s ++ s2) o.
Proof.
  intros s o H [[-> L]|(s1 & a & s3 & -> & Ha & Hn & L)].
  - left. split; auto. intros a [Ha|Ha]%in_app_or; auto.
  - right. exists s1, a, (s3 ++ s2). rewrite <- app_assoc. repeat split; auto. intros x [Hx|Hx]%in_app_or; auto.
Qed.
Lemma no_proc_quiet x id st : (forall p, x <> RProc p) -> a_proc ann_rec id st x = None.
Proof. intros H. destruct x; try reflexivity. now destruct (H p). Qed.
Lemma PIF_app s s2 id o : (forall p, ~ In (RProc p) s2) -> ProcInForce ann_rec s id o -> ProcInForce ann_rec (s ++ s2) id o.
Proof.
  intros H (m & c & r & Hm & Hc & Hr & Ho). exists m, c, r.
  assert (Q : forall id st x, In x s2 -> a_proc ann_rec id st x = None) by (intros i st x Hx; apply no_proc_quiet; intros p ->; now apply (H p)).
  repeat split; auto; apply Latest_app_none; eauto.
Qed.
Lemma Ancestry_app s s2 id l : (forall p, ~ In (RProc p) s2) -> Ancestry ann_rec s id l -> Ancestry ann_rec (s ++ s2) id l.
Proof.
  intros H A. induction A.
  - apply An_unknown. now apply PIF_app.
  - apply An_root; auto. now apply PIF_app.
  - eapply An_parent; eauto. now apply PIF_app.
Qed.
Lemma app_split {A} (s1 s2 a b : list A) x : s1 ++ s2 = a ++ x :: b ->
  (exists c, s1 = a ++ x :: c) \/ (exists c, a = s1 ++ c /\ s2 = c ++ x :: b).
Proof.
  revert a. induction s1 as [|y s1 IH]; intros [|z a] E; cbn in E.
  - right. exists []. auto.
  - right. exists (z :: a). auto.
  - left. injection E as -> <-. exists s1. reflexivity.
  - injection E as -> E. destruct (IH _ E) as [[c ->]|(c & -> & ->)]; [left|right]. { exists c. reflexivity. } { exists c. auto. }
Qed.
Lemma first_current s1 s2 r id l :
  subject r = Some id -> (forall x, In x s1 -> subject x <> Some id) -> (forall p, ~ In (RProc p) s2) ->
  FirstAncestry false (s1 ++ s2) r id l -> Ancestry ann_rec (s1 ++ s2) id l.
Proof.
  intros Hr H1 H2 (a & x & b & E & Ha & _ & HA).
  destruct Ha as [[Hx P]|[X _]]; [|discriminate].
  rewrite (event_seen _ _ _ Hx) in HA.
  apply snoc_inv in E as [(-> & -> & ->)|(b' & -> & E)]; auto.
  destruct (app_split _ _ _ _ _ E) as [[c ->]|(c & -> & ->)].
  - exfalso. apply (H1 x); auto. apply in_elt.
  - rewrite app_assoc. apply Ancestry_app; auto. intros p Hp. apply (H2 p). apply in_or_app. auto.
Qed.
Lemma event_current ent h s1 s2 r rest st ds id : ent = false ->
  reader_run ent reader_init (h ++ r :: rest) = Ok (st, ds) -> Since is_header h (s1 ++ s2) ->
  subject r = Some id -> (forall x, In x s1 -> subject x <> Some id) -> (forall p, ~ In (RProc p) s2) ->
  exists x c, nth_error ds (count ent h) = Some (x, c) /\
    match x_proc x with Some _ => exists l, x_ptree x = Some l /\ Ancestry ann_rec (s1 ++ s2) id l | None => x_ptree x = None end.
Proof.
  intros -> E Hs Hr H1 H2. destruct (reader_nth _ _ _ _ _ _ _ E Hs) as (x & c & Hn & HD); [destruct r; try discriminate; reflexivity|].
  exists x, c. split; auto.
  assert (HE : EventCtx false h (s1 ++ s2) r id x).
  { destruct r; try discriminate; injection Hr as ->; destruct HD as (x' & c' & [= -> ->] & _ & _ & HE); exact HE. }
  pose proof (ec_ptree _ _ _ _ _ _ HE) as P. destruct (x_proc x), (x_ptree x) as [l|]; try contradiction; auto.
  exists l. split; auto. eapply first_current; eauto.
Qed.

(** Statements of the form asked for in Props_Reader. *)
Lemma event_spec ent h r rest st ds s id : reader_run ent reader_init (h ++ r :: rest) = Ok (st, ds) -> Since is_header h s ->
  subject r = Some id -> exists x c, nth_error ds (count ent h) = Some (x, c) /\ EventCtx ent h s r id x.
Proof.
  intros E Hs Hr. destruct (reader_nth _ _ _ _ _ _ _ E Hs) as (x & c & Hn & HD); [destruct r; try discriminate; reflexivity|].
  exists x, c. split; auto. destruct r; try discriminate; injection Hr as ->; destruct HD as (x' & c' & [= -> ->] & _ & _ & HE); exact HE.
Qed.
Lemma process_spec h p rest st ds s : reader_run true reader_init (h ++ RProc p :: rest) = Ok (st, ds) -> Since is_header h s ->
  exists x c, nth_error ds (count true h) = Some (x, c) /\ ProcessCtx h s p x.
Proof.
  intros E Hs. destruct (reader_nth _ _ _ _ _ _ _ E Hs eq_refl) as (x & c & Hn & HD). exists x, c. split; auto.
  destruct HD as (x' & c' & [= -> ->] & _ & _ & HE); exact HE.
Qed.
Lemma file_spec h f rest st ds s : reader_run true reader_init (h ++ RFile f :: rest) = Ok (st, ds) -> Since is_header h s ->
  exists x c, nth_error ds (count true h) = Some (x, c) /\ FileCtx h s f x.
Proof.
  intros E Hs. destruct (reader_nth _ _ _ _ _ _ _ E Hs eq_refl) as (x & c & Hn & HD). exists x, c. split; auto.
  destruct HD as (x' & c' & [= -> ->] & _ & _ & HE); exact HE.
Qed.
Lemma plain_spec ent h r rest st ds : reader_run ent reader_init (h ++ r :: rest) = Ok (st, ds) ->
  deliverable ent r = true -> subject r = None -> (forall p, r <> RProc p) -> (forall f, r <> RFile f) ->
  exists x c, nth_error ds (count ent h) = Some (x, c) /\ PlainCtx h r x.
Proof.
  intros E Hd H1 H2 H3. destruct (Since_total is_header) with (h := h) as [s Hs].
  { intros a. destruct a; try (right; apply not_header; discriminate). left. eexists; reflexivity. }
  destruct (reader_nth _ _ _ _ _ _ _ E Hs Hd) as (x & c & Hn & HD). exists x, c. split; auto.
  unfold Delivered in HD. rewrite Hd in HD. destruct HD as (x' & c' & [= -> ->] & _ & _ & HE).
  destruct r; try discriminate; auto; [now destruct (H2 p)|now destruct (H3 f)].
Qed.

(** A process that changes between two events is delivered with its old self as first ancestor. *)
Lemma stale_ancestry p q n1 n2 hd : p_oid q = p_oid p -> p_state p = CREATED -> p_state q = MODIFIED -> p_poid p = None ->
  exists st d, reader_run false reader_init [RHeader hd; RProc p; RProcEvt (p_oid p) n1; RProc q; RProcEvt (p_oid p) n2] = Ok (st, d) /\
  map (fun d => (x_proc (fst d), x_ptree (fst d))) d = [(Some (trimmed p), Some [trimmed p]); (Some (trimmed q), Some [trimmed p])].
Proof.
  intros E1 E2 E3 E4. destruct p as [po ps pp pe pa pc pdt], q as [qo qs qp qe qa qc qdt]. cbn in *. subst.
  unfold reader_run, reader_step, set_proc, set_slot, pod_cont_proc, get_proc, get_ptree, mset, trimmed, prov_fuel.
  cbn -[trim_space oid_eqb]. rewrite ?oid_eqb_refl. cbn -[trim_space oid_eqb]. unfold get_proc. cbn -[trim_space oid_eqb]. rewrite ?oid_eqb_refl. cbn -[trim_space oid_eqb].
  rewrite ?oid_eqb_refl. cbn -[trim_space oid_eqb]. rewrite ?oid_eqb_refl. cbn -[trim_space oid_eqb]. eexists _, _. split; reflexivity.
Qed.
Lemma crash_state p ent hd : p_state p <> CREATED -> p_state p <> MODIFIED -> p_state p <> REUP ->
  reader_run ent reader_init [RHeader hd; RProc p] = Panic.
Proof.
  intros H1 H2 H3. unfold reader_run, reader_step, set_proc, set_slot. cbn -[trim_space CREATED MODIFIED REUP].
  destruct (Z.eqb_spec (p_state p) CREATED); [contradiction|]. destruct (Z.eqb_spec (p_state p) MODIFIED); [contradiction|].
  destruct (Z.eqb_spec (p_state p) REUP); [contradiction|]. reflexivity.
Qed.
Lemma crash_file f hd : f_cont f = INil -> reader_run true reader_init [RHeader hd; RFile f] = Panic.
Proof. intros H. unfold reader_run, reader_step, cont_of_file. rewrite H. reflexivity. Qed.
Lemma crash_cycle p n hd : p_poid p = Some (p_oid p) -> p_state p = CREATED ->
  reader_run false reader_init [RHeader hd; RProc p; RProcEvt (p_oid p) n] = NoFuel.
Proof.
  intros E1 E2. destruct p as [po ps pp pe pa pc pdt]. cbn in *. subst.
  unfold reader_run, reader_step, set_proc, set_slot, pod_cont_proc, get_proc, get_ptree, mset, trimmed, prov_fuel.
  cbn -[trim_space oid_eqb]. rewrite ?oid_eqb_refl. cbn -[trim_space oid_eqb]. unfold get_proc. cbn -[trim_space oid_eqb]. rewrite ?oid_eqb_refl. cbn -[trim_space oid_eqb].
  rewrite ?oid_eqb_refl. cbn -[trim_space oid_eqb]. rewrite ?oid_eqb_refl. cbn -[trim_space oid_eqb]. reflexivity.
Qed.

(** The second processor on what a reader delivers. *)
Definition is_entity (r : rec) : bool := match r with RHeader _ | RCont _ | RPod _ | RK8s _ => true | _ => false end.
Lemma step_entities ent st r st' ds : reader_step ent st r = Ok (st', ds) -> forall x c, In (x, c) ds ->
  match x_rec x with
  | RHeader _ | RCont _ | RPod _ | RK8s _ => x_cont x = None /\ x_pod x = None /\ x_k8s x = None
  | RProc p => processor_step true x = Some c
  | RFile f => processor_step true x = Some c
  | _ => forall e, processor_step e x = Some c end.
Proof.
  intros E x c Hx. destruct st as [hdr t].
  destruct r as [h|cn|p|n|p|f|o n|o n|o f n|o f nf n|n|n|n]; cbn [reader_step] in E; cbv zeta in E.
  1-4: injection E as <- <-; destruct ent; repeat (destruct Hx as [Hx|Hx]; [injection Hx as <- <-; cbn; auto|]); destruct Hx.
  - destruct (set_proc _ _ _) as [t1| | |]; cbn [rbind] in E; try discriminate. destruct ent; [|injection E as <- <-; destruct Hx].
    destruct (get_ptree _ _) as [[t2 l]| | |]; cbn [rbind] in E; try discriminate. injection E as <- <-. destruct Hx as [Hx|[]]. injection Hx as <- <-. reflexivity.
  - destruct ent; [|injection E as <- <-; destruct Hx].
    destruct (cont_of_file _ _) as [c0| | |]; cbn [rbind] in E; try discriminate. injection E as <- <-. destruct Hx as [Hx|[]]. injection Hx as <- <-. reflexivity.
  - destruct (pod_cont_proc _ _) as [[t1 [[[pd cn] pr] l]]| | |]; cbn [rbind] in E; try discriminate. injection E as <- <-. destruct Hx as [Hx|[]]. injection Hx as <- <-. cbn. auto.
  - destruct (pod_cont_proc _ _) as [[t1 [[[pd cn] pr] l]]| | |]; cbn [rbind] in E; try discriminate. injection E as <- <-. destruct Hx as [Hx|[]]. injection Hx as <- <-. cbn. auto.
  - destruct (pod_cont_proc _ _) as [[t1 [[[pd cn] pr] l]]| | |]; cbn [rbind] in E; try discriminate. injection E as <- <-. destruct Hx as [Hx|[]]. injection Hx as <- <-. cbn. auto.
  - destruct (pod_cont_proc _ _) as [[t1 [[[pd cn] pr] l]]| | |]; cbn [rbind] in E; try discriminate. injection E as <- <-. destruct Hx as [Hx|[]]. injection Hx as <- <-. cbn. auto.
  - injection E as <- <-. destruct Hx.
  - injection E as <- <-. destruct Hx.
  - injection E as <- <-. destruct Hx.
Qed.
Lemma run_entities ent : forall rs st st' ds, reader_run ent st rs = Ok (st', ds) -> forall x c, In (x, c) ds ->
  match x_rec x with
  | RHeader _ | RCont _ | RPod _ | RK8s _ => x_cont x = None /\ x_pod x = None /\ x_k8s x = None
  | RProc p => processor_step true x = Some c
  | RFile f => processor_step true x = Some c
  | _ => forall e, processor_step e x = Some c end.
Proof.
  induction rs as [|r rs IH]; intros st st' ds E x c Hx; cbn in E.
  - injection E as <- <-. destruct Hx.
  - destruct (reader_step ent st r) as [[s1 d1]| | |] eqn:E1; cbn [rbind] in E; try discriminate.
    destruct (reader_run ent s1 rs) as [[s2 d2]| | |] eqn:E2; cbn [rbind] in E; try discriminate. injection E as <- <-.
    apply in_app_or in Hx as [Hx|Hx]; [exact (step_entities _ _ _ _ _ E1 x c Hx)|exact (IH _ _ _ E2 x c Hx)].
Qed.
(** Event, process and file records are handed over unchanged, in order, by the second processor. *)
Definition joined (x : ctx) : bool := match x_rec x with RProc _ | RFile _ | RProcEvt _ _ | RNetFlow _ _ | RFileFlow _ _ _ | RFileEvt _ _ _ _ => true | _ => false end.
Lemma relay ent rs st st' ds : reader_run ent st rs = Ok (st', ds) ->
  filter (fun d => joined (fst d)) (processor_run true (map fst ds)) = filter (fun d => joined (fst d)) ds.
Proof.
  intros E. pose proof (run_entities _ _ _ _ _ E) as H. clear E. induction ds as [|[x c] ds IH]; auto.
  unfold processor_run. cbn [map flat_map fst filter]. rewrite filter_app. fold (processor_run true (map fst ds)).
  rewrite IH by (intros; apply H; now right). clear IH. specialize (H x c (or_introl eq_refl)).
  unfold joined in *. destruct (x_rec x) eqn:Ex; try (specialize (H true)); try rewrite H; cbn; rewrite ?Ex; auto;
  destruct (processor_step true x); cbn; rewrite ?Ex; auto.
Qed.
(** With entities off, the events only. *)
Definition is_event (x : ctx) : bool := match x_rec x with RProcEvt _ _ | RNetFlow _ _ | RFileFlow _ _ _ | RFileEvt _ _ _ _ => true | _ => false end.
Lemma relay_events ent rs st st' ds : reader_run ent st rs = Ok (st', ds) ->
  processor_run false (map fst ds) = filter (fun d => is_event (fst d)) ds.
Proof.
  intros E. pose proof (run_entities _ _ _ _ _ E) as H. clear E. induction ds as [|[x c] ds IH]; auto.
  unfold processor_run. cbn [map flat_map fst filter]. fold (processor_run false (map fst ds)).
  rewrite IH by (intros; apply H; now right). clear IH. specialize (H x c (or_introl eq_refl)).
  unfold is_event in *. unfold processor_step in *. destruct (x_rec x) eqn:Ex; auto; try (specialize (H false)); cbn in *; try discriminate; try (injection H as <-); auto.
Qed.
Lemma relay_lost ent rs st st' ds x c : reader_run ent st rs = Ok (st', ds) -> In (x, c) ds ->
  match x_rec x with
  | RCont _ => processor_step true x = Some (HCont None)
  | RPod _ => processor_step true x = Some (HPod None)
  | RK8s _ => processor_step true x = Some (HK8s None)
  | _ => True end.
Proof.
  intros E Hx. pose proof (run_entities _ _ _ _ _ E _ _ Hx) as H. unfold processor_step. destruct (x_rec x); auto; destruct H as (H1 & H2 & H3); now rewrite ?H1, ?H2, ?H3.
Qed.
