(** * AppFacts: proofs about the pipeline as a whole. *)
From Coq Require Import Lia Permutation.
From Verif Require ReaderModel SpecReader ReaderFacts ReaderFacts2 ReaderFacts3 JsonModel SpecJson JsonFlat JsonFacts2 JsonFacts4 JsonFacts7 ExportFacts FlattenFacts FlattenFacts2.
From Verif Require Import GoBase GoFacts Predicates FlatRecord EngineModel EngineFlat FlattenModel SpecFlatten ExportModel SpecExport NetModel SpecNet NetFacts NetFacts2 NetFacts3
  AppModel SpecApp.
Local Open Scope nat_scope.

(** ** Reading *)
Lemma joined_run rs st ds : ReaderModel.reader_run false ReaderModel.reader_init rs = Ok (st, ds) -> Joined rs ds.
Proof.
  intros E. destruct (ReaderFacts2.reader_inv _ _ _ _ E) as (_ & M & F). split.
  - rewrite M. clear. induction rs as [|r rs IH]; [reflexivity|]. cbn. destruct r; cbn; rewrite ?IH; reflexivity.
  - intros h r rest -> D.
    assert (C : forall x c, nth_error ds (SpecReader.count false h) = Some (x, c) -> ReaderModel.x_rec x = r -> SpecReader.call_for r c).
    { intros x c Hn <-. exact (proj1 (Forall_forall _ _) F (x, c) (nth_error_In _ _ Hn)). }
    destruct (SpecReader.subject r) as [id|] eqn:S.
    + destruct (ReaderFacts.Since_total SpecReader.is_header) with (h := h) as [s Hs].
      { intros a. destruct a; try (right; intros (z & Z); discriminate). left. eexists; reflexivity. }
      destruct (ReaderFacts3.event_spec _ _ _ _ _ _ _ _ E Hs S) as (x & c & Hn & HE). exists x, c. split; [exact Hn|]. split; [apply (C _ _ Hn), HE|].
      intros s' Hs'. rewrite (ReaderFacts.Since_fun _ _ _ _ Hs' Hs). exact HE.
    + destruct (ReaderFacts3.plain_spec _ _ _ _ _ _ E D S) as (x & c & Hn & HP).
      { intros p ->. discriminate. } { intros f ->. discriminate. }
      exists x, c. split; [exact Hn|]. split; [apply (C _ _ Hn), HP|exact HP].
Qed.
(** The deliveries of the reader as the flattener's handlers see them. *)
Lemma same_ids r : known_id r (cid r). Proof. destruct r; cbn; congruence. Qed.
Lemma opt_map {A B} (f : A -> B) (p : A -> B -> Prop) o : (forall a, p a (f a)) -> optionally p o (option_map f o).
Proof. intros H. destruct o; cbn; auto. Qed.
Lemma same_c_proc P p : same_proc P p (c_proc P p).
Proof.
  repeat split; try apply same_ids. cbn [c_proc p_poid]. apply opt_map. split; reflexivity.
Qed.
Lemma same_c_file P f : same_file P f (c_file P f).
Proof. repeat split; apply same_ids. Qed.
Lemma joined_calls rs ds : Joined rs ds -> Forall (fun d => SpecReader.deliverable false (ReaderModel.x_rec (fst d)) = true /\ SpecReader.call_for (ReaderModel.x_rec (fst d)) (snd d)) ds.
Proof.
  intros [M F]. apply Forall_forall. intros d Hd. apply In_nth_error in Hd as (i & Hi).
  assert (N : nth_error (List.filter (SpecReader.deliverable false) rs) i = Some (ReaderModel.x_rec (fst d))) by (rewrite <- M; exact (map_nth_error (fun d : ReaderModel.ctx * ReaderModel.call => ReaderModel.x_rec (fst d)) _ _ Hi)).
  assert (Q : exists h rest, rs = h ++ ReaderModel.x_rec (fst d) :: rest /\ SpecReader.count false h = i /\ SpecReader.deliverable false (ReaderModel.x_rec (fst d)) = true).
  { clear M F Hi. revert N. generalize (ReaderModel.x_rec (fst d)) as r0. intros r0. revert i. induction rs as [|r rs IH]; intros i N; [destruct i; discriminate|].
    cbn [List.filter] in N. destruct (SpecReader.deliverable false r) eqn:D.
    - destruct i as [|i].
      + injection N as <-. exists [], rs. auto.
      + destruct (IH i N) as (h & rest & -> & E & D0). exists (r :: h), rest. unfold SpecReader.count in *. cbn [List.filter]. rewrite D. cbn. auto.
    - destruct (IH i N) as (h & rest & -> & E & D0). exists (r :: h), rest. unfold SpecReader.count in *. cbn [List.filter]. rewrite D. auto. }
  destruct Q as (h & rest & E & C & D). split; [exact D|]. destruct (F h _ rest E D) as (x & c & Hn & Hc & _). subst i. assert (Ed : Some d = Some (x, c)) by (rewrite <- Hn; symmetry; exact Hi). injection Ed as ->. exact Hc.
Qed.
Lemma joined_events P rs ds : Joined rs ds -> Forall2 (same_event P) ds (events P ds).
Proof.
  intros J. pose proof (joined_calls _ _ J) as F. clear J. induction F as [|[x c] ds [D C] F IH]; [constructor|].
  unfold events. cbn [flat_map]. fold (events P ds). cbn [fst snd] in *.
  assert (S : forall e, c_event P c = Some e -> same_event P (x, c) (c_ctx P x, e)).
  { intros e Ee. split.
    - cbn [fst snd]. destruct (ReaderModel.x_rec x); cbn in C; try discriminate D; try contradiction; subst c; cbn in Ee; injection Ee as <-; reflexivity.
    - cbn [fst snd c_ctx x_hdr x_pod x_cont x_proc x_ptree x_file x_newfile].
      repeat split; apply opt_map; intros a; try reflexivity; try (apply same_c_proc); try (apply same_c_file); try (repeat split; fail).
      induction a; constructor; [apply same_c_proc|assumption]. }
  destruct (c_event P c) as [e|] eqn:Ee; [constructor; [apply S; reflexivity|exact IH]|].
  exfalso. destruct (ReaderModel.x_rec x); cbn in C; try discriminate D; try contradiction; subst c; discriminate.
Qed.

Section A.
Variable P : payloads.
Variables (clk : nat -> Z) (ipstr : Z -> string) (jsonsvcs : list service -> string) (hash : flatrec -> Z).
Notation hall := (handle_all clk ipstr jsonsvcs hash).
Lemma hall_acc l : forall f acc, hall (mkFlt f [acc]) l = mkFlt (fl_filter (hall (mkFlt f [[]]) l)) [acc ++ concat (fl_out (hall (mkFlt f [[]]) l))].
Proof.
  unfold handle_all. induction l as [|xe l IH]; intros f acc; cbn [fold_left]; [cbn; rewrite app_nil_r; reflexivity|].
  unfold FlattenModel.handle at 2 4 6. cbn [fl_filter fl_out].
  assert (K : forall g fr, fold_left (FlattenModel.handle clk ipstr jsonsvcs hash) l (mkFlt g (send_all fr [acc])) =
    mkFlt (fl_filter (fold_left (FlattenModel.handle clk ipstr jsonsvcs hash) l (mkFlt g (send_all fr [[]])))) [acc ++ concat (fl_out (fold_left (FlattenModel.handle clk ipstr jsonsvcs hash) l (mkFlt g (send_all fr [[]]))))]).
  { intros g fr. unfold send_all. cbn [map]. rewrite (IH g (acc ++ [fr])). rewrite (IH g ([] ++ [fr])). cbn [fl_filter fl_out concat app]. rewrite app_nil_r, <- app_assoc. reflexivity. }
  destruct (snd xe); try apply K.
  all: destruct f as [[ttl fs]|]; try apply K; destruct (test_and_add _ _ _ _) as [f' []]; [apply IH|apply K].
Qed.
Lemma hall_app f l1 l2 : let s1 := hall (mkFlt f [[]]) l1 in let s2 := hall (mkFlt (fl_filter s1) [[]]) l2 in
  fl_filter (hall (mkFlt f [[]]) (l1 ++ l2)) = fl_filter s2 /\ concat (fl_out (hall (mkFlt f [[]]) (l1 ++ l2))) = concat (fl_out s1) ++ concat (fl_out s2).
Proof.
  cbn zeta. assert (E : hall (mkFlt f [[]]) (l1 ++ l2) = hall (hall (mkFlt f [[]]) l1) l2) by (unfold handle_all; apply fold_left_app).
  rewrite E. rewrite (hall_acc l1 f []) at 1 3. cbn [app]. rewrite hall_acc. cbn [fl_filter fl_out]. split; [reflexivity|]. cbn [concat]. rewrite app_nil_r. reflexivity.
Qed.
Lemma events_app a b : events P (a ++ b) = events P a ++ events P b.
Proof. unfold events. apply flat_map_app. Qed.

Lemma read_handle conf rs : forall rd rd' ds f, ReaderModel.reader_run false rd rs = Ok (rd', ds) ->
  handle (reader_stage P clk ipstr jsonsvcs hash conf) (SRead rd f) (map MRec rs) =
  (SRead rd' (fl_filter (hall (mkFlt f [[]]) (events P ds))), map (fun fr => (Some 1, MFlat fr)) (concat (fl_out (hall (mkFlt f [[]]) (events P ds))))).
Proof.
  induction rs as [|r rs IH]; intros rd rd' ds f H; cbn [map handle ReaderModel.reader_run] in *.
  - injection H as <- <-. reflexivity.
  - cbn [g_step reader_stage read_step]. destruct (ReaderModel.reader_step false rd r) as [[rd1 d1]| | |] eqn:E1; try discriminate. cbn [rbind] in H.
    destruct (ReaderModel.reader_run false rd1 rs) as [[rd2 d2]| | |] eqn:E2; try discriminate. cbn [rbind] in H. injection H as <- <-.
    rewrite (IH _ _ _ _ E2), events_app. destruct (hall_app f (events P d1) (events P d2)) as [Q1 Q2]. rewrite Q1, Q2, map_app. reflexivity.
Qed.
Lemma read_effects conf rs rd' ds : ReaderModel.reader_run false ReaderModel.reader_init rs = Ok (rd', ds) ->
  let f := option_map (fun ttl => (ttl, f_new)) (filter_config conf) in
  all_effects (reader_stage P clk ipstr jsonsvcs hash conf) (map MRec rs) = map (fun fr => (Some 1, MFlat fr)) (concat (fl_out (hall (mkFlt f [[]]) (events P ds)))).
Proof.
  intros H. cbn zeta. unfold all_effects. cbn [g_driver reader_stage g_init].
  rewrite (read_handle conf rs _ _ _ (option_map (fun ttl => (ttl, f_new)) (filter_config conf)) H). cbn [g_fin]. apply app_nil_r.
Qed.
Lemma passed conf l : (forall n, (clk n <= clk (S n))%Z) ->
  Passed ipstr jsonsvcs hash conf l (concat (fl_out (hall (mkFlt (option_map (fun ttl => (ttl, f_new)) (filter_config conf)) [[]]) l))).
Proof.
  intros Mono. unfold Passed. destruct (filter_config conf) as [ttl|]; cbn [option_map].
  - destruct (f_run clk ttl f_new (map (consults ipstr jsonsvcs hash) l)) as [s tr] eqn:E. exists tr.
    destruct (FlattenFacts.suppress clk ttl Mono _ _ _ E) as [H1 H2]. split; [exact H1|]. split; [exact H2|].
    change [[]] with (@repeat (list flatrec) [] 1). rewrite (FlattenFacts2.handle_all_run clk ipstr jsonsvcs hash ttl l f_new [] 1 s tr E). cbn. apply app_nil_r.
  - change [[]] with (@repeat (list flatrec) [] 1). rewrite (FlattenFacts2.handle_all_off clk ipstr jsonsvcs hash l [] 1). cbn. apply app_nil_r.
Qed.

(** ** Exporting *)
Variable work : sfrec -> list sfrec.
Variables (buffer xstart : Z).
Variable ticks : nat -> list (Z * Z).
Variable times : nat -> Z * Z.
Notation tick_events n := (map (fun t => XTick (fst t) (snd t)) (ticks n)).
Fixpoint xsched (n : nat) (recs : list sfrec) : list (xevent sfrec) :=
  match recs with
  | [] => tick_events n ++ [XClose]
  | r :: recs' => tick_events n ++ XRec r (fst (times n)) (snd (times n)) :: xsched (S n) recs'
  end.
Lemma received_ticks (l : list (Z * Z)) (es : list (xevent sfrec)) : received (map (fun t => XTick (fst t) (snd t)) l ++ es) = received es.
Proof. induction l; cbn; auto. Qed.
Lemma xsched_received recs : forall n, received (xsched n recs) = recs /\ In XClose (xsched n recs).
Proof.
  induction recs as [|r recs IH]; intros n; cbn [xsched]; rewrite received_ticks.
  - split; [reflexivity|]. apply in_app_iff. right. now left.
  - cbn [received]. destruct (IH (S n)) as [-> I]. split; [reflexivity|]. apply in_app_iff. right. now right.
Qed.
Lemma step_batches_grow (x : xstate sfrec) e : exists l, x_batches (x_step buffer x e) = x_batches x ++ l.
Proof.
  unfold x_step. destruct (x_open x); [|exists []; now rewrite app_nil_r]. destruct e as [r a b|a b|].
  - unfold x_flush. cbn. destruct (Z.leb _ _); cbn; [eauto|exists []; now rewrite app_nil_r].
  - destruct (_ && _); unfold x_flush; cbn; [eauto|exists []; now rewrite app_nil_r].
  - cbn. destruct (Z.ltb _ _); [eauto|exists []; now rewrite app_nil_r].
Qed.
Lemma run_batches_grow es : forall x : xstate sfrec, exists l, x_batches (fold_left (x_step buffer) es x) = x_batches x ++ l.
Proof.
  induction es as [|e es IH]; intros x; cbn; [exists []; now rewrite app_nil_r|]. destruct (IH (x_step buffer x e)) as [l ->]. destruct (step_batches_grow x e) as [l' ->].
  exists (l' ++ l). now rewrite app_assoc.
Qed.
Lemma x_new_app (x y z : xstate sfrec) es1 es2 : y = fold_left (x_step buffer) es1 x -> z = fold_left (x_step buffer) es2 y -> x_new x z = x_new x y ++ x_new y z.
Proof.
  intros -> ->. unfold x_new. destruct (run_batches_grow es1 x) as [l1 E1]. destruct (run_batches_grow es2 (fold_left (x_step buffer) es1 x)) as [l2 E2].
  rewrite E2, E1, <- map_app. f_equal. rewrite <- app_assoc.
  assert (K : forall (a b : list (list sfrec)), skipn (length a) (a ++ b) = b) by (induction a; auto). rewrite !K. rewrite app_assoc, K. reflexivity.
Qed.
Notation xstage := (exporter_stage buffer xstart ticks times).
Lemma export_handle recs : forall n x, let '(st, es) := handle xstage (SExp n x) (map MOut recs) in
  es ++ g_fin xstage st = x_new x (fold_left (x_step buffer) (xsched n recs) x).
Proof.
  induction recs as [|r recs IH]; intros n x; cbn [map handle].
  - cbn [g_fin exporter_stage export_fin xsched app]. rewrite fold_left_app. reflexivity.
  - cbn [g_step exporter_stage export_step]. specialize (IH (S n) (x_step buffer (x_ticks buffer ticks n x) (XRec r (fst (times n)) (snd (times n))))).
    destruct (handle xstage _ (map MOut recs)) as [st es]. rewrite <- app_assoc, IH. cbn [xsched]. rewrite fold_left_app. cbn [fold_left].
    symmetry. eapply (x_new_app x _ _ (tick_events n ++ [XRec r (fst (times n)) (snd (times n))])); [rewrite fold_left_app; reflexivity|reflexivity].
Qed.
Lemma export_effects recs : all_effects xstage (map MOut recs) = map (fun b => (None, MBatch b)) (x_batches (x_run buffer xstart (xsched 0 recs))).
Proof.
  unfold all_effects. cbn [g_driver exporter_stage g_init]. pose proof (export_handle recs 0 (x_start xstart)) as H.
  destruct (handle xstage (SExp 0 (x_start xstart)) (map MOut recs)) as [st es]. exact H.
Qed.
Lemma batches_map (l : list (list sfrec)) : batches_of (map (fun b => (None, MBatch b)) l) = l.
Proof. induction l as [|b l IH]; [reflexivity|]. cbn. now f_equal. Qed.

(** ** The network *)
Notation net := (app P clk ipstr jsonsvcs hash work buffer xstart ticks times).
Lemma on_map {A} c (f : A -> msg) l : on c (map (fun a => (Some c, f a)) l) = map f l.
Proof. induction l as [|a l IH]; [reflexivity|]. unfold on in *. cbn. rewrite Nat.eqb_refl. cbn. now f_equal. Qed.
Lemma on_app c (a b : list (@eff msg)) : on c (a ++ b) = on c a ++ on c b.
Proof. apply flat_map_app. Qed.
Lemma app_wf rs conf width : 0 < width -> well_formed (net rs conf width).
Proof.
  intros W.
  assert (CASES : forall i g, nth_error (net rs conf width) i = Some g ->
    (i = 0 /\ g = driver_stage rs) \/ (i = 1 /\ g = reader_stage P clk ipstr jsonsvcs hash conf) \/ (i = 2 /\ g = engine_stage work width) \/ (i = 3 /\ g = xstage)).
  { intros [|[|[|[|i]]]] g H; cbn in H; try (injection H as <-); auto 6. destruct i; discriminate. }
  assert (X : forall x x' c m, ~ In (Some c, m) (x_new x x')).
  { intros x x' c m I. unfold x_new in I. apply in_map_iff in I as (b & E & _). discriminate. }
  constructor.
  - intros i g H D. apply CASES in H as [[-> ->]|[[-> ->]|[[-> ->]|[-> ->]]]]; cbn in *; eauto; discriminate.
  - intros i g H D. apply CASES in H as [[-> ->]|[[-> ->]|[[-> ->]|[-> ->]]]]; cbn in *; try lia; discriminate.
  - intros i g H. apply CASES in H as [[-> ->]|[[-> ->]|[[-> ->]|[-> ->]]]]; intros c m; cbn; try tauto.
    intros I. apply in_map_iff in I as (r & E & _). injection E as <- _. auto.
  - intros i g st m H. apply CASES in H as [[-> ->]|[[-> ->]|[[-> ->]|[-> ->]]]]; intros c m'; cbn [g_outs g_step driver_stage reader_stage engine_stage exporter_stage snd].
    + intros [].
    + unfold read_step. destruct st as [|rd f|]; try (intros []). destruct m; try (intros []).
      destruct (ReaderModel.reader_step false rd r) as [[rd' ds]| | |]; try (intros []). cbn [snd]. intros I. apply in_map_iff in I as (z & E & _). injection E as <- _. now left.
    + unfold engine_effects. destruct m; try (intros []). intros I. apply in_map_iff in I as (z & E & _). injection E as <- _. now left.
    + unfold export_step. destruct st as [| |n x]; try (intros []). destruct m; try (intros []). cbn [snd]. intros I. now apply X in I.
  - intros i g st H. apply CASES in H as [[-> ->]|[[-> ->]|[[-> ->]|[-> ->]]]]; intros c m; cbn [g_fin driver_stage reader_stage engine_stage exporter_stage]; try (intros []).
    unfold export_fin. destruct st; try (intros []). intros I. now apply X in I.
  - intros i g H. apply CASES in H as [[-> ->]|[[-> ->]|[[-> ->]|[-> ->]]]]; cbn; repeat constructor; cbn; tauto.
  - intros i j g h c H H'. apply CASES in H as [[-> ->]|[[-> ->]|[[-> ->]|[-> ->]]]]; apply CASES in H' as [[-> ->]|[[-> ->]|[[-> ->]|[-> ->]]]]; cbn; try tauto; intuition congruence.
  - intros i j g h c H H'. apply CASES in H as [[-> ->]|[[-> ->]|[[-> ->]|[-> ->]]]]; apply CASES in H' as [[-> ->]|[[-> ->]|[[-> ->]|[-> ->]]]]; cbn; intros E E'; congruence.
  - intros i g c H. apply CASES in H as [[-> ->]|[[-> ->]|[[-> ->]|[-> ->]]]]; cbn; intros [= <-].
    + exists 0, (driver_stage rs). cbn. auto.
    + exists 1, (reader_stage P clk ipstr jsonsvcs hash conf). cbn. auto.
    + exists 2, (engine_stage work width). cbn. auto.
  - intros i g c H. apply CASES in H as [[-> ->]|[[-> ->]|[[-> ->]|[-> ->]]]]; cbn; intros [<-|[]] || intros [].
    + exists 1, (reader_stage P clk ipstr jsonsvcs hash conf). cbn. auto.
    + exists 2, (engine_stage work width). cbn. auto.
    + exists 3, xstage. cbn. auto.
  - intros i j g h c H H'. apply CASES in H as [[-> ->]|[[-> ->]|[[-> ->]|[-> ->]]]]; apply CASES in H' as [[-> ->]|[[-> ->]|[[-> ->]|[-> ->]]]]; cbn; try lia; intros; exfalso; intuition congruence.
Qed.

Lemma app_run cap rs conf width r0 ls s : 0 < width -> (forall n, (clk n <= clk (S n))%Z) -> SpecReader.Sane false rs ->
  steps (net rs conf width) cap (init (net rs conf width) r0) ls s -> wait_returns (net rs conf width) s ->
  s_crash s = false /\
  exists ds out recs, Joined rs ds /\ Passed ipstr jsonsvcs hash conf (events P ds) out /\
    Permutation recs (flat_map (fun fr => work (fr, ctx_new)) out) /\
    batches_of (r_sent (s_rt s 3)) = x_batches (x_run buffer xstart (xsched 0 recs)) /\
    concat (batches_of (r_sent (s_rt s 3))) = recs.
Proof.
  intros W Mono Sn H Wt. pose proof (app_wf rs conf width W) as WF. split; [exact (safe _ cap WF r0 ls s H)|].
  destruct (ReaderFacts2.reader_total false rs Sn) as (rd & ds & Er).
  destruct (standard cap (driver_stage rs) (reader_stage P clk ipstr jsonsvcs hash conf) (engine_stage work width) xstage (engine_effects work) r0 ls s) as (R1 & R2 & R3 & R4); auto.
  { right; auto. } { right; auto. }
  change (g_feed (driver_stage rs)) with (map (fun r => (Some 0, MRec r)) rs) in R1. rewrite on_map in R1. rewrite R1 in R2.
  rewrite (read_effects conf rs rd ds Er), on_map in R2.
  set (out := concat (fl_out (hall (mkFlt (option_map (fun ttl => (ttl, f_new)) (filter_config conf)) [[]]) (events P ds)))) in *.
  assert (E3 : on 2 (flat_map (engine_effects work) (map MFlat out)) = map MOut (flat_map (fun fr => work (fr, ctx_new)) out)).
  { clear. induction out as [|fr out IH]; [reflexivity|]. cbn [map flat_map engine_effects]. rewrite on_app, map_app. f_equal; [apply (on_map 2 MOut)|exact IH]. }
  rewrite R2, E3 in R3. apply Permutation_map_inv in R3 as (recs & Erecs & Hp).
  exists ds, out, recs. split; [exact (joined_run _ _ _ Er)|]. split; [apply passed, Mono|]. split; [exact (Permutation_sym Hp)|].
  rewrite R4, Erecs, export_effects, batches_map. split; [reflexivity|].
  destruct (ExportFacts.batching buffer xstart (xsched 0 recs)) as [B1 B2]. destruct (xsched_received recs 0) as [Q1 Q2].
  rewrite Q1 in B1. apply B2 in Q2. rewrite Q2, app_nil_r in B1. exact B1.
Qed.
End A.

(** ** The engine in the pipeline *)
From Verif Require Import FieldTables FalcoModel SpecFalco SpecFlat SigmaModel LexerModel SpecLexer SpecEngine SpecEngineFlat PoolModel SpecPool MonitorModel SpecMonitor InitModel SpecInit InitFacts.
Lemma flat_map_outs X M ah rd p l : rd_pi rd = Some p ->
  flat_map (fun fr : flatrec => engine_work X M ah rd (fr, ctx_new)) l =
  concat (map (fun fr => outs (snd (sf_work X M ah (c_mode (rd_conf rd)) (fst p) (snd p) (fr, ctx_new)))) l).
Proof. intros E. rewrite flat_map_concat_map. f_equal. apply map_ext. intros fr. unfold engine_work. rewrite E. reflexivity. Qed.
Lemma engine_disposed X M typ : map_str X M "sf.type" = Ok typ ->
  forall pmatch ord n h conf d ah m rd, policies_in conf d -> language_is conf Falco -> monitor_is conf NoneType -> mode_is conf m ->
  benign ah -> faithful h d -> InitModel.init (sf_ops X M) pmatch ord n h conf = Ok (Some rd) ->
  exists texts dss, texts_of h d texts /\ Forall2 text_reads texts dss /\
    forall out : list flatrec, exists os, Forall2 (fun fr o => disposed X M typ dss m (fr, ctx_new) o) out os /\
      flat_map (fun fr => engine_work X M ah rd (fr, ctx_new)) out = concat os.
Proof.
  intros Ht pmatch ord n h conf d ah m rd Hd Hl Hmon Hm Hb Hf Hi.
  apply (init_iff _ _ _ _ h conf d rd Hd) in Hi as (p & C & _ & [[_ ->]|(Ml & _ & _)]).
  2:{ pose proof (word_option_fun _ _ _ _ _ _ _ monitor_fun Hmon Ml). discriminate. }
  destruct (interpreter_texts X M typ Ht _ _ _ _ _ _ _ m _ Hd Hl Hb Hf C) as (texts & dss & T & F & D).
  exists texts, dss. split; [assumption|]. split; [assumption|]. intros out.
  eexists. split; [|apply (flat_map_outs X M ah _ p); reflexivity].
  cbn [rd_conf]. rewrite (mode_eq _ _ Hm). clear - D. induction out; cbn; constructor; auto.
Qed.
Lemma engine_bypass X M (ops : operations sfrec) pmatch ord n h conf ah rd out :
  no_policies conf -> InitModel.init ops pmatch ord n h conf = Ok (Some rd) ->
  flat_map (fun fr : flatrec => engine_work X M ah rd (fr, ctx_new)) out = map (fun fr => (fr, ctx_new)) out.
Proof.
  intros Hn Hi. assert (E : rd_pi rd = None).
  { destruct (init_no_policies ops pmatch ord n h conf Hn) as [H1 H2]. destruct (conf_parts conf) as (_ & _ & _ & Hm & _).
    destruct (c_mode (fst (create_config conf))); [rewrite (H1 Hm) in Hi; injection Hi as <-; reflexivity|].
    rewrite (H2 Hm) in Hi. discriminate. }
  unfold engine_work. rewrite E. induction out as [|fr out IH]; [reflexivity|]. cbn [flat_map map List.app]. rewrite IH. reflexivity.
Qed.

(** ** The exported file *)
Lemma line_concat ls : String.concat "" (map (fun l => (l ++ nl)%string) ls) = lines (map DBytes ls).
Proof. unfold lines. rewrite map_map. reflexivity. Qed.
Lemma encoded X two version (recs : list sfrec) : (forall r, In r recs -> exists l, json_of X two version r = Ok l) ->
  exists ls, Forall2 (fun r l => json_of X two version r = Ok l) recs ls /\ encode_all (enc_json X two version) recs = Some (map DBytes ls).
Proof.
  induction recs as [|r recs IH]; intros H; [exists []; split; constructor|].
  destruct (H r (or_introl eq_refl)) as [l L]. destruct IH as (ls & F & E); [intros q Hq; apply H; now right|].
  exists (l :: ls). split; [constructor; assumption|]. cbn [encode_all map]. unfold enc_json at 1. rewrite L, E. reflexivity.
Qed.
Lemma file_lines X two version w wn old bs ls : (forall k, w k = WOk) -> (forall k, wn k = WOk) -> Forall (fun b => b <> []) bs ->
  Forall2 (fun r l => json_of X two version r = Ok l) (concat bs) ls ->
  made_of_lines (file_after (file_init true old) (process_all (encode_all (enc_json X two version)) (file_export w wn) 0 bs)) ls.
Proof.
  intros W N B F. unfold made_of_lines. rewrite line_concat.
  destruct (encoded X two version (concat bs)) as (ls' & F' & E).
  { intros r Hr. clear - F Hr. induction F as [|? ? ? ? H F IH]; [destruct Hr|]. destruct Hr as [<-|Hr]; eauto. }
  assert (ls' = ls) as ->.
  { clear - F F'. revert ls' F'. induction F as [|r l rs ls H F IH]; intros ls' F'; inversion F' as [|? l' ? ls'' H' F'']; subst; [reflexivity|].
    f_equal; [congruence|]. apply IH; assumption. }
  rewrite (ExportFacts.file_after_ok _ w wn W N bs 0 _ _ B E). reflexivity.
Qed.
Lemma line_value X txt two version vj r l : (forall s, SpecJson.clean s (txt s)) -> SpecJson.jtext version vj ->
  json_of X two version r = Ok l -> json_line X txt two vj r l.
Proof.
  intros C V E Wr v. destruct (JsonFacts4.encode_value X txt two (fst r) C Wr (rules_ctx (snd r)) version vj V) as (s & E' & J).
  unfold json_of in E. rewrite E in E'. injection E' as <-. split; [intros J'; exact (JsonFacts2.jtext_fun _ _ _ J' J)|intros ->; exact J].
Qed.
Lemma batches_nonempty buffer xstart recs ticks times :
  Forall (fun b : list sfrec => b <> []) (x_batches (x_run buffer xstart (xsched ticks times 0 recs))).
Proof.
  destruct (ExportFacts.run_good (R := sfrec) buffer xstart (xsched ticks times 0 recs)) as [_ G]. eapply Forall_impl; [|exact G].
  intros b [L _] ->. cbn in L. lia.
Qed.
(** Every record of a run stems from an event, with its data unchanged. *)
Lemma kept_in {A} (l : list A) tr a : In a (kept l tr) -> In a l.
Proof.
  revert tr. induction l as [|b l IH]; intros tr H; [destruct tr; exact H|]. destruct tr as [|o tr]; [destruct H|].
  destruct o as [[[? []] ?]|]; cbn in H; [right; eauto|destruct H; [left|right]; eauto|destruct H; [left|right]; eauto].
Qed.
Lemma passed_in ipstr jsonsvcs hash conf l out fr : Passed ipstr jsonsvcs hash conf l out -> In fr out ->
  exists xe, In xe l /\ fr = flatten ipstr jsonsvcs (fst xe) (snd xe).
Proof.
  unfold Passed. intros H Hi. assert (In fr (map (fun xe => flatten ipstr jsonsvcs (fst xe) (snd xe)) l)) as Q.
  { destruct (filter_config conf); [destruct H as (tr & _ & _ & ->); exact (kept_in _ _ _ Hi)|subst; exact Hi]. }
  apply in_map_iff in Q as (xe & <- & Hx). eauto.
Qed.
Lemma disposed_in X M typ dss m r o r' : disposed X M typ dss m r o -> In r' o -> fst r' = fst r.
Proof.
  intros [[_ ->]|(_ & fired & new & _ & _ & [(_ & _ & ->)|(_ & q & -> & E & _)])] Hi; try destruct Hi; subst; auto. destruct H.
Qed.
