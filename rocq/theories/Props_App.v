(** * Property C88: the shipped pipeline, from the records of the driver to the exported file. *)
From Coq Require Import Lia Permutation.
From Verif Require ReaderModel SpecReader ReaderFacts3 SpecJson JsonFlat.
From Verif Require Import GoBase GoFacts Predicates FlatRecord FieldTables Samples FalcoModel SpecFalco SpecFlat SigmaModel LexerModel SpecLexer LexFast
  EngineModel EngineFlat SpecEngine SpecEngineFlat PoolModel SpecPool MonitorModel SpecMonitor InitModel SpecInit InitFacts LiveFacts
  FlattenModel SpecFlatten ExportModel SpecExport NetModel SpecNet Props_Net AppModel SpecApp AppFacts Props_Grammar Props_Init.
Local Open Scope nat_scope.

Section S.
(** What the pipeline is given: the attributes of the records, the library functions, the clock, the
    exporter's batch size and what its select statement sees. *)
Variables (P : payloads) (clk : nat -> Z) (ipstr : Z -> string) (jsonsvcs : list service -> string) (hash : flatrec -> Z)
  (buffer xstart : Z) (ticks : nat -> list (Z * Z)) (times : nat -> Z * Z).
Definition pipeline work := app P clk ipstr jsonsvcs hash work buffer xstart ticks times.

(** C88.  With policies and no monitor, under every schedule: when Wait returns, the batches exported
    are made of exactly what becomes, by the policy texts, of the events of the stream, each joined
    with the entities in force, without the repeats the rate filter holds back. *)
Theorem C88_end_to_end :
  forall X M typ, map_str X M "sf.type" = Ok typ ->
  forall pmatch ord n h conf d ah m rd fconf rs width cap r0 ls s,
  policies_in conf d -> language_is conf Falco -> monitor_is conf NoneType -> mode_is conf m ->
  benign ah -> faithful h d -> InitModel.init (sf_ops X M) pmatch ord n h conf = Ok (Some rd) ->
  (forall n, (clk n <= clk (S n))%Z) -> SpecReader.Sane false rs -> 0 < width ->
  let net := pipeline (engine_work X M ah rd) rs fconf width in
  steps net cap (init net r0) ls s -> wait_returns net s ->
  s_crash s = false /\
  exists ds out texts dss os, Joined rs ds /\ Passed ipstr jsonsvcs hash fconf (events P ds) out /\
    texts_of h d texts /\ Forall2 text_reads texts dss /\
    Forall2 (fun fr o => disposed X M typ dss m (fr, ctx_new) o) out os /\
    Permutation (concat (batches_of (r_sent (s_rt s 3)))) (concat os).
Proof.
  intros X M typ Ht pmatch ord n h conf d ah m rd fconf rs width cap r0 ls s Hd Hl Hmon Hm Hb Hf Hi Mono Sn W net H Wt.
  destruct (app_run P clk ipstr jsonsvcs hash _ _ _ _ _ cap rs fconf width r0 ls s W Mono Sn H Wt) as (C & ds & out & recs & J & Pa & Pe & _ & E).
  split; [exact C|].
  destruct (engine_disposed X M typ Ht _ _ _ _ _ _ _ m _ Hd Hl Hmon Hm Hb Hf Hi) as (texts & dss & T & F & D).
  destruct (D out) as (os & Fo & Eo). exists ds, out, texts, dss, os. rewrite E, <- Eo. auto 10.
Qed.
(** Without policies, in enrich mode: all of them, without a context. *)
Theorem C88_bypass :
  forall X M (ops : operations sfrec) pmatch ord n h conf ah rd fconf rs width cap r0 ls s,
  no_policies conf -> InitModel.init ops pmatch ord n h conf = Ok (Some rd) ->
  (forall n, (clk n <= clk (S n))%Z) -> SpecReader.Sane false rs -> 0 < width ->
  let net := pipeline (engine_work X M ah rd) rs fconf width in
  steps net cap (init net r0) ls s -> wait_returns net s ->
  s_crash s = false /\
  exists ds out, Joined rs ds /\ Passed ipstr jsonsvcs hash fconf (events P ds) out /\
    Permutation (concat (batches_of (r_sent (s_rt s 3)))) (map (fun fr => (fr, ctx_new)) out).
Proof.
  intros X M ops pmatch ord n h conf ah rd fconf rs width cap r0 ls s Hn Hi Mono Sn W net H Wt.
  destruct (app_run P clk ipstr jsonsvcs hash _ _ _ _ _ cap rs fconf width r0 ls s W Mono Sn H Wt) as (C & ds & out & recs & J & Pa & Pe & _ & E).
  split; [exact C|]. exists ds, out. rewrite E, <- (engine_bypass X M ops pmatch ord n h conf ah rd out Hn Hi). auto.
Qed.
(** The file the JSON encoder and the file target make of the batches consists of one line for each of
    these records, which is the JSON text of the record where it has one. *)
Theorem C88_json_file :
  forall X M typ, map_str X M "sf.type" = Ok typ ->
  forall pmatch ord n h conf d ah m rd fconf rs width cap r0 ls s,
  policies_in conf d -> language_is conf Falco -> monitor_is conf NoneType -> mode_is conf m ->
  benign ah -> faithful h d -> InitModel.init (sf_ops X M) pmatch ord n h conf = Ok (Some rd) ->
  (forall n, (clk n <= clk (S n))%Z) -> SpecReader.Sane false rs -> 0 < width ->
  let net := pipeline (engine_work X M ah rd) rs fconf width in
  steps net cap (init net r0) ls s -> wait_returns net s ->
  forall txt two version vj w wn old, (forall s, SpecJson.clean s (txt s)) -> SpecJson.jtext version vj ->
  (forall k, w k = WOk) -> (forall k, wn k = WOk) ->
  exists ds out texts dss os recs lns, Joined rs ds /\ Passed ipstr jsonsvcs hash fconf (events P ds) out /\
    texts_of h d texts /\ Forall2 text_reads texts dss /\
    Forall2 (fun fr o => disposed X M typ dss m (fr, ctx_new) o) out os /\ Permutation recs (concat os) /\
    Forall2 (json_line X txt two vj) recs lns /\
    made_of_lines (file_after (file_init true old)
      (process_all (encode_all (enc_json X two version)) (file_export w wn) 0 (batches_of (r_sent (s_rt s 3))))) lns.
Proof.
  intros X M typ Ht pmatch ord n h conf d ah m rd fconf rs width cap r0 ls s Hd Hl Hmon Hm Hb Hf Hi Mono Sn W net H Wt txt two version vj w wn old Hc Hv Hw Hn.
  destruct (app_run P clk ipstr jsonsvcs hash _ _ _ _ _ cap rs fconf width r0 ls s W Mono Sn H Wt) as (C & ds & out & recs & J & Pa & Pe & Eb & E).
  destruct (engine_disposed X M typ Ht _ _ _ _ _ _ _ m _ Hd Hl Hmon Hm Hb Hf Hi) as (texts & dss & T & F & D).
  destruct (D out) as (os & Fo & Eo). rewrite Eo in Pe.
  destruct (encoded X two version recs) as (lns & Fl & _).
  { intros r Hr. apply (Permutation_in _ Pe), in_concat in Hr as (o & Ho & Hr).
    assert (Q : exists fr, In fr out /\ fst r = fr).
    { clear - Fo Ho Hr. induction Fo as [|fr o' out os Hd Fo IH]; [destruct Ho|]. destruct Ho as [->|Ho].
      - exists fr. split; [now left|]. exact (disposed_in _ _ _ _ _ _ _ _ Hd Hr).
      - destruct (IH Ho) as (f & ? & ?). exists f. split; [now right|assumption]. }
    destruct Q as (fr & Hfr & Er). destruct (passed_in _ _ _ _ _ _ _ Pa Hfr) as (xe & _ & ->).
    unfold json_of. rewrite Er. apply JsonFlat.flat_encodes. }
  exists ds, out, texts, dss, os, recs, lns. repeat (split; [assumption|]). split.
  - clear - Hc Hv Fl. induction Fl as [|r l rs' ls' H Fl IH]; constructor; [exact (line_value _ _ _ _ _ _ _ Hc Hv H)|assumption].
  - apply file_lines; try assumption; [rewrite Eb; apply batches_nonempty|rewrite E; exact Fl].
Qed.
(** What the flattener is handed for a stream: each event of the stream with its own kind and
    attributes, and the header, pod, container, process, ancestors and files joined to it, each in its place. *)
Theorem C88_conversion :
  forall rs ds, Joined rs ds -> Forall2 (same_event P) ds (events P ds).
Proof. exact (joined_events P). Qed.
(** And Wait does return: there is no infinite execution, and one that cannot continue has finished. *)
Theorem C88_finishes :
  forall work rs fconf width cap r0, 0 < width -> 0 < cap ->
  let net := pipeline work rs fconf width in
  (forall ls s, steps net cap (init net r0) ls s -> Acc (fun s2 s1 => exists l, fire net cap s1 l = Some s2) s) /\
  (forall ls s, steps net cap (init net r0) ls s -> (forall l, fire net cap s l = None) -> wait_returns net s).
Proof.
  intros work rs fconf width cap r0 W C net.
  assert (WF : well_formed net) by apply app_wf, W. split.
  - intros ls s. apply (C41_terminates _ _ net cap WF).
  - intros ls s H M. apply (C41_ends_complete _ _ net cap WF C r0 ls s H M).
Qed.
End S.
Print Assumptions C88_end_to_end.
Print Assumptions C88_bypass.
Print Assumptions C88_json_file.
Print Assumptions C88_conversion.
Print Assumptions C88_finishes.

(** A shell, an event of it, and an event of an unknown process: with the policies of C86 (a rule
    firing on shells) and two workers, one record with the rule's name is exported. *)
Definition ex_pay : payloads :=
  mkPay (fun _ => mkFHdr 4 "node" "10.0.0.1" "/f") (fun _ => mkFCont "" "web" "nginx" "i1" 0 false) (fun _ => mkFPod 0 "" "" "" "" 0 [] [] [])
    (fun _ => proc0) (fun _ => mkFFile 0 0 0 "" "" None) (fun _ => mkK8s 0 "" 0 0) (fun _ => mkPE 5 1 1 0) (fun _ => mkNF 0 0 0 0 0 0 0 0 0 0 0 0 0 0)
    (fun _ => mkFF 0 0 0 0 0 0 0 0 0 0) (fun _ => mkFE 0 0 0 0).
Definition ex_sh : ReaderModel.process := ReaderModel.mkProc (2, 7)%Z ReaderModel.CREATED None "/usr/bin/Bash" "" (ReaderModel.IStr "c1") 0.
Definition ex_ls : ReaderModel.process := ReaderModel.mkProc (3, 9)%Z ReaderModel.CREATED None "/bin/ls" "" ReaderModel.INil 0.
Definition ex_recs : list ReaderModel.rec :=
  [ReaderModel.RHeader 0; ReaderModel.RProc ex_sh; ReaderModel.RProc ex_ls; ReaderModel.RProcEvt (3, 9)%Z 0; ReaderModel.RProcEvt (2, 7)%Z 0].
Definition ex_pipe rd := pipeline ex_pay (fun n => Z.of_nat n) (fun _ => "") (fun _ => "") (fun _ => 0%Z) 2 0 (fun _ => []) (fun n => (Z.of_nat n, Z.of_nat n))
  (engine_work X0 mappers ex_ah0 rd) ex_recs [] 2.
(** A scheduler: the first step that is possible, later stages first, the second record at work before the first. *)
Definition ex_labels := flat_map (fun i => [LEff i 1; LEff i 0; LRecv i; LEnd i; LReturn i; LClose i]) [3; 2; 1; 0].
Fixpoint ex_first net (s : @state msg sstate) (ls : list label) : option (label * @state msg sstate) :=
  match ls with [] => None | l :: ls' => match fire net 2 s l with Some s' => Some (l, s') | None => ex_first net s ls' end end.
Fixpoint ex_go (fuel : nat) net (s : @state msg sstate) : list label * @state msg sstate :=
  match fuel with
  | O => ([], s)
  | S k => match ex_first net s ex_labels with Some (l, s') => let (ls, s'') := ex_go k net s' in (l :: ls, s'') | None => ([], s) end
  end.
Lemma ex_go_steps fuel net : forall s, steps net 2 s (fst (ex_go fuel net s)) (snd (ex_go fuel net s)).
Proof.
  induction fuel as [|k IH]; intros s; [constructor|]. cbn [ex_go]. destruct (ex_first net s ex_labels) as [[l s']|] eqn:E; [|constructor].
  assert (F : fire net 2 s l = Some s').
  { clear IH. induction ex_labels as [|l0 ls0 IH0]; [discriminate|]. cbn [ex_first] in E. destruct (fire net 2 s l0) eqn:F; [injection E as <- <-; exact F|auto]. }
  specialize (IH s'). destruct (ex_go k net s') as [ls s'']. econstructor; [exact F|exact IH].
Qed.
Definition ex_rt0 : @rt msg sstate := mkR SNone [] Exited true [] [].
Definition ex_end rd := snd (ex_go 60 (ex_pipe rd) (init (ex_pipe rd) ex_rt0)).
Definition ex_report rd := let s := ex_end rd in (map (fun i => r_done (s_rt s i)) [1; 2; 3], length (r_recv (s_rt s 2)), map (map ex_names) (batches_of (r_sent (s_rt s 3)))).
Example C88_case :
  match ex_init ["a.yaml"] "none" "alert" "2" with
  | Ok (Some rd) => ex_report rd = ([true; true; true], 2, [[["Shell"]]])
  | _ => False
  end.
Proof. vm_compute. reflexivity. Qed.

(** The hypotheses are met by this run. *)
Lemma orphans_sane rs : (forall p, In (ReaderModel.RProc p) rs -> ReaderModel.p_poid p = None /\ ReaderModel.p_state p = ReaderModel.CREATED) -> SpecReader.Sane false rs.
Proof.
  intros Ho. constructor.
  - intros p H. left. apply Ho, H.
  - intros f H. left. reflexivity.
  - intros h r rest s q E Hs Hq.
    assert (Hin : forall x, In x (SpecReader.seen s r) -> (exists p, x = ReaderModel.RProc p /\ ReaderModel.p_poid p = None) \/ forall p, x <> ReaderModel.RProc p).
    { intros x Hx. assert (Hx' : In x rs).
      { rewrite E. assert (In x s \/ x = r) as [Hi|Hi] by (destruct r; cbn in Hx; auto; apply in_app_or in Hx as [?|[?|[]]]; auto).
        - apply in_or_app. left. destruct Hs as [_ [->|(a & b & _ & ->)]]; auto. apply in_or_app. right. now right.
        - subst. apply in_elt. }
      destruct x; try (right; discriminate). left. eexists. split; [reflexivity|]. apply Ho, Hx'. }
    assert (Hp : forall id p, SpecReader.ProcInForce SpecReader.ann_rec (SpecReader.seen s r) id (Some p) -> ReaderModel.p_poid p = None).
    { intros id p (m & c & rr & Hm & Hc & Hr & Ho').
      assert (Q : forall st o, SpecReader.Latest (SpecReader.a_proc SpecReader.ann_rec id st) (SpecReader.seen s r) o -> o = Some p -> ReaderModel.p_poid p = None).
      { intros st o [[-> _]|(s1 & a & s2 & E' & Ha & _ & _)] Eo; [discriminate|]. destruct (Hin a) as [(p' & -> & N)|Hn]; [rewrite E'; apply in_elt| |].
        - rewrite Eo in Ha. cbn in Ha. destruct (_ && _); [|discriminate]. now injection Ha as <-.
        - rewrite (ReaderFacts3.no_proc_quiet _ _ _ Hn) in Ha. congruence. }
      destruct m as [m|]; [apply (Q _ _ Hm); congruence|]. destruct c as [c|]; [apply (Q _ _ Hc); congruence|apply (Q _ _ Hr); congruence]. }
    inversion Hq as [id p q' P' E'|id p q' r' P' E' _]; subst; rewrite (Hp _ _ P') in E'; discriminate.
Qed.
Example C88_hypotheses_case : SpecReader.Sane false ex_recs /\
  forall rd, ex_init ["a.yaml"] "none" "alert" "2" = Ok (Some rd) -> exists ls, steps (ex_pipe rd) 2 (init (ex_pipe rd) ex_rt0) ls (ex_end rd) /\ wait_returns (ex_pipe rd) (ex_end rd).
Proof.
  split.
  - apply orphans_sane. intros p H. repeat (destruct H as [H|H]; [try discriminate H; injection H as <-; split; reflexivity|]). destruct H.
  - intros rd E. pose proof C88_case as C. rewrite E in C. eexists. split; [apply ex_go_steps|].
    assert (C1 : map (fun i => r_done (s_rt (ex_end rd) i)) [1; 2; 3] = [true; true; true]) by exact (f_equal (fun x => fst (fst x)) C).
    clear C E. revert C1. generalize (ex_end rd). intros s C1. cbn [map] in C1. injection C1 as C1 C2 C3.
    unfold ex_pipe, pipeline, app. generalize (driver_stage ex_recs) (eq_refl : g_driver (driver_stage ex_recs) = true). intros g0 G0.
    intros [|[|[|[|i]]]] g H D; cbn [nth_error] in H; try assumption; [injection H as <-; congruence|]. destruct i; discriminate.
Qed.
