(** * Property C105: working through trace files is killed at any moment and started again. *)
From Coq Require Import Lia Permutation.
From Verif Require ReaderModel SpecReader DriverModel SpecDriver ExportFacts JsonFlat SpecJson.
From Verif Require Import GoBase GoFacts Predicates FlatRecord FieldTables Samples FalcoModel SpecFalco SpecFlat SigmaModel LexerModel SpecLexer
  EngineModel EngineFlat SpecEngine SpecEngineFlat PoolModel SpecPool MonitorModel SpecMonitor InitModel SpecInit InitFacts LiveFacts
  FlattenModel SpecFlatten ExportModel SpecExport AppModel SpecApp AppFacts ChainModel SpecChain ChainFacts SpecRest EcsModel SpecEcs ElasticModel SpecElastic ElasticFacts
  RerunModel RerunFacts Props_Init Props_App Props_Chain Props_Ecs Props_Elastic Props_Rest.
Local Open Scope nat_scope.

Section P.
Variables (P : payloads) (ipstr : Z -> string) (jsonsvcs : list service -> string) (hash : flatrec -> Z).
Variables (X : sfgo_fns) (M : gomap fieldmap) (pmatch : string -> string -> bool) (ord : srule -> list nat -> list (string * search)) (n : nat).
Variable ah : ahandler sfrec.
Variables (E : ecs_fns) (version ecsversion : string).
Notation attempted := (attempted P ipstr jsonsvcs hash X M pmatch ord n ah).
Notation indexed rd fconf := (indexed P ipstr jsonsvcs hash X M pmatch ord n ah rd fconf E version ecsversion).
Notation starts h conf rd := (InitModel.init (sf_ops X M) pmatch ord n h conf = Ok (Some rd)).
Notation docs_of := (ecs_docs X E version ecsversion).

(** C105.  An Elasticsearch index, policies that are not monitored (of either language) or none, no rate filter.  However many lives
    there were before, each killed at any moment, each on the files as far as they were written then: the index holds nothing, besides
    what was there at first ([ix]), that a complete life would not put there; and after a complete one [a] it is what that life alone
    would have made of [ix]: its documents under their identifiers, all that were not lost represented. *)
Theorem C105_same_index :
  forall h conf rd fconf rs ix ix1 a lost ix2,
  (exists d, policies_in conf d) /\ monitor_is conf NoneType \/ no_policies conf -> starts h conf rd -> filter_config fconf = None -> SpecReader.Sane false rs ->
  indexed rd fconf rs ix ix1 -> attempted rd fconf rs a -> x_open (a_exp a) = false ->
  es_batches ix1 (map docs_of (x_batches (a_exp a))) lost ix2 ->
  let docs := concat (map docs_of (x_batches (a_exp a))) in
  only_from ix docs ix1 /\ only_from ix docs ix2 /\ (forall d, In d docs -> In d lost \/ represented ix docs ix2 d) /\
  (NoDup (map e_id docs) -> forall d, In d docs -> mget (e_id d) ix = None -> In d lost \/ mget (e_id d) ix2 = Some d).
Proof.
  intros h conf rd fconf rs ix ix1 a lost ix2 Hf Hi Ho Sn Hx A Hc B docs. unfold docs. rewrite docs_concat.
  split; [|exact (rerun_index P ipstr jsonsvcs hash X M pmatch ord n ah rd fconf E version ecsversion h conf Ho Hf Hi rs a ix ix1 lost ix2 Sn A Hc Hx B)].
  destruct A as (A & H & Ex).
  destruct (life_exact P (a_clk a) ipstr jsonsvcs hash X M pmatch ord n ah rd (a_buffer a) (a_start a) (a_cap a) fconf (a_acts a) rs A Sn Ho h conf Hf Hi (a_trace a) (a_end a) (a_exp a) H Ex)
    as (rin & more & st & ds & Es & R & _ & Al). destruct (Al Hc) as [-> Pm]. rewrite app_nil_r in Es. subst rin.
  destruct (indexed_from P ipstr jsonsvcs hash X M pmatch ord n ah rd fconf E version ecsversion h conf Ho Hf Hi rs st ds ix ix1 Sn R Hx) as (l & Hl & ->).
  assert (S : incl l (docs_of (concat (x_batches (a_exp a))))).
  { intros d Hd. apply (docs_incl X E version ecsversion _ _ (fun r Hr => Permutation_in _ (Permutation_sym Pm) Hr)). exact (Hl d Hd). }
  split; intros id d; rewrite es_mget; destruct (mget id ix); auto; try discriminate. intros F. apply find_id in F as [F1 F2]. right. auto.
Qed.
(** With Falco policies: the documents are one for each event the policies select, each describing its event (as C97). *)
Theorem C105_same_index_falco :
  (forall o, (0 <= op_bit E o)%Z) -> type_names X -> forall typ, map_str X M "sf.type" = Ok typ ->
  forall h conf d m rd fconf rs ix ix1 a lost ix2,
  policies_in conf d -> language_is conf Falco -> monitor_is conf NoneType -> mode_is conf m -> benign ah -> faithful h d ->
  starts h conf rd -> filter_config fconf = None -> (forall k, (a_clk a k <= a_clk a (S k))%Z) -> SpecReader.Sane false rs ->
  indexed rd fconf rs ix ix1 -> attempted rd fconf rs a -> x_open (a_exp a) = false ->
  es_batches ix1 (map docs_of (x_batches (a_exp a))) lost ix2 ->
  exists ds texts dss os recs docs, Joined rs ds /\ texts_of h d texts /\ Forall2 text_reads texts dss /\
    Forall2 (fun xe o => disposed X M typ dss m (flatten ipstr jsonsvcs (fst xe) (snd xe), ctx_new) o) (events P ds) os /\ Permutation recs (concat os) /\
    Forall2 (fun r doc => exists xe, In xe (events P ds) /\ fst r = flatten ipstr jsonsvcs (fst xe) (snd xe) /\
                                     describes X E version ecsversion (fst xe) (snd xe) (snd r) doc) recs docs /\
    only_from ix docs ix1 /\ only_from ix docs ix2 /\ (forall doc, In doc docs -> In doc lost \/ represented ix docs ix2 doc) /\
    (NoDup (map e_id docs) -> forall doc, In doc docs -> mget (e_id doc) ix = None -> In doc lost \/ mget (e_id doc) ix2 = Some doc).
Proof.
  intros Bits Names typ Ht h conf d m rd fconf rs ix ix1 a lost ix2 Hd Hl Hmon Hm Hb Hf Hi Ho Mono Sn Hx A Hc B.
  destruct (C105_same_index h conf rd fconf rs ix ix1 a lost ix2 (or_introl (conj (ex_intro _ d Hd) Hmon)) Hi Ho Sn Hx A Hc B) as (I0 & I1 & I2 & I3). rewrite docs_concat in I0, I1, I2, I3.
  destruct A as (A & H & Ex).
  destruct (C91_static P (a_clk a) ipstr jsonsvcs hash X M pmatch ord n ah (a_buffer a) (a_start a) (a_cap a) typ Ht h conf d m rd fconf rs _ (a_trace a) (a_end a) (a_exp a) Hd Hl Hmon Hm Hb Hf Hi Mono A Sn H (conj Ex Hc))
    as (ds & out & texts & dss & os & J & Pa & T & F & Fo & Pe).
  set (recs := concat (x_batches (a_exp a))) in *.
  pose proof (docs_all X E version ecsversion ipstr jsonsvcs Bits Names (events P ds) recs) as D.
  assert (K : forall r, In r recs -> exists xe, In xe (events P ds) /\ fst r = flatten ipstr jsonsvcs (fst xe) (snd xe)).
  { intros r Hr. exact (static_in X M ipstr jsonsvcs hash fconf (events P ds) out typ m dss os r Pa Fo (Permutation_in _ Pe Hr)). }
  specialize (D K). exists ds, texts, dss, os, recs, (docs_of recs). split; [exact J|]. split; [exact T|]. split; [exact F|]. split.
  { unfold Passed in Pa. rewrite Ho in Pa. rewrite Pa in Fo. clear - Fo. revert os Fo. induction (events P ds) as [|xe l IH]; intros os Fo; inversion Fo; subst; constructor; auto. }
  split; [exact Pe|]. split; [|auto]. clear - D. induction D as [|r doc rs docs (xe & H1 & H2 & H3 & _) D IH]; constructor; [eauto|exact IH].
Qed.

(** The output file of a life, killed at any moment, at any byte of a write ([k]): whole lines, each the JSON text of its record, for a
    first part of the records exported, then possibly a beginning of the next line. *)
Theorem C105_text_at_crash :
  forall typ, map_str X M "sf.type" = Ok typ ->
  forall h conf d m rd fconf rs a txt two vj, 
  policies_in conf d -> language_is conf Falco -> monitor_is conf LocalType -> mode_is conf m ->
  benign ah -> faithful h d -> (forall h', In h' (shown (a_trace a)) -> faithful h' d) -> starts h conf rd -> (forall k, (a_clk a k <= a_clk a (S k))%Z) -> SpecReader.Sane false rs ->
  attempted rd fconf rs a -> (forall s, SpecJson.clean s (txt s)) -> SpecJson.jtext version vj ->
  forall k, exists recs later lns part, concat (x_batches (a_exp a)) = recs ++ later /\ Forall2 (json_line X txt two vj) recs lns /\
    stake k (file_text (enc_json X two version) a) = (String.concat "" (map (fun l => (l ++ nl)%string) lns) ++ part)%string /\
    match later with [] => part = "" | r :: _ => exists l j, json_line X txt two vj r l /\ part = stake j l end.
Proof.
  intros typ Ht h conf d m rd fconf rs a txt two vj Hd Hl Hmon Hm Hb Hf Hfs Hi Mono Sn (A & H & Ex) Hc Hv k.
  destruct (C98_every_moment P (a_clk a) ipstr jsonsvcs hash X M pmatch ord n ah (a_buffer a) (a_start a) (a_cap a) typ Ht h conf d m rd fconf rs _ (a_trace a) (a_end a) (a_exp a) Hd Hl Hmon Hm Hb Hf Hfs Hi Mono A Sn H Ex)
    as (rs1 & rs2 & ds & out1 & out2 & hs & eras & hand & oss & rest & _ & J & Pa & _ & T1 & _ & _ & F2 & Pe & _).
  set (recs := concat (x_batches (a_exp a))) in *.
  destruct (encoded X two version recs) as (lns & Fln & _).
  { intros r Hr. assert (Hr' : In r (concat (map (@concat sfrec) oss))).
    { apply (Permutation_in _ (Permutation_sym Pe)). rewrite <- app_assoc. apply in_or_app. now left. }
    apply in_concat in Hr' as (o & Ho & Hr'). apply in_map_iff in Ho as (os & <- & Ho).
    assert (Q : exists e, In e eras /\ exists r0, In r0 (snd e) /\ fst r = fst r0).
    { clear - F2 Ho Hr'. induction F2 as [|e os' eras oss D F2 IH]; [destruct Ho|]. destruct Ho as [->|Ho].
      - exists e. split; [now left|]. clear - D Hr'. destruct e as [tx es]. cbn [fst snd] in D |- *. induction D as [|r0 o' l os Dd D IH]; [destruct Hr'|]. cbn [concat] in Hr'. apply in_app_or in Hr' as [Hr|Hr].
        + exists r0. split; [now left|]. exact (disposed_in _ _ _ _ _ _ _ _ Dd Hr).
        + destruct (IH Hr) as (q & ? & ?). exists q. split; [now right|assumption].
      - destruct (IH Ho) as (q & ? & ?). exists q. split; [now right|assumption]. }
    destruct Q as (e & He & r0 & Hr0 & Er).
    assert (Hfr : In (fst r0) out1).
    { assert (Hc' : In r0 (concat (map snd eras) ++ hand)) by (apply in_or_app; left; apply in_concat; exists (snd e); split; [apply in_map; exact He|exact Hr0]).
      rewrite <- T1 in Hc'. apply in_map_iff in Hc' as (fr & <- & Hf'). exact Hf'. }
    destruct (passed_in _ _ _ _ _ _ _ Pa (in_or_app _ _ _ (or_introl Hfr))) as (xe & _ & Exe).
    unfold json_of. rewrite Er, Exe. apply JsonFlat.flat_encodes. }
  assert (Xr : exists es, a_exp a = x_run (a_buffer a) (a_start a) es).
  { pose proof (app_safe _ _ _ _ _ _ _ _ _ _ _ _ _ _ (a_cap a) fconf (a_acts a) rs A Sn _ _ H) as Cr.
    destruct (snapshot _ _ _ _ _ _ _ _ _ _ _ _ _ _ (a_cap a) fconf (a_acts a) rs A _ _ H Cr) as ([done l rs' pc rd1 f rin ds' e chs ltr x' es] & K).
    destruct K as (_ & _ & _ & _ & _ & _ & _ & _ & _ & _ & _ & _ & _ & _ & _ & _ & _ & E3 & Exx & _). rewrite E3 in Ex. injection Ex as ->. eauto. }
  assert (Tx : made_of_lines (file_text (enc_json X two version) a) lns).
  { unfold file_text. change "" with (file_init true ""). apply file_lines; [reflexivity|reflexivity| |exact Fln]. destruct Xr as (es & ->).
    destruct (ExportFacts.run_good (R := sfrec) (a_buffer a) (a_start a) es) as [_ G]. eapply Forall_impl; [|exact G]. intros b [L _] ->. cbn in L. lia. }
  unfold made_of_lines in Tx. rewrite Tx. destruct (prefix_of_lines lns k) as (i & j & Hi' & Es). rewrite Es.
  assert (Fv : Forall2 (json_line X txt two vj) recs lns).
  { clear - Hc Hv Fln. induction Fln as [|r l rs' ls' H Fl IH]; constructor; [exact (line_value _ _ _ _ _ _ _ Hc Hv H)|assumption]. }
  exists (firstn i recs), (skipn i recs), (firstn i lns), (match skipn i lns with [] => "" | l :: _ => stake j l end).
  split; [symmetry; apply firstn_skipn|]. split.
  { clear - Fv. revert i. induction Fv as [|r l rs ls H F IH]; intros [|i]; cbn [firstn]; constructor; auto. }
  split; [reflexivity|]. clear - Fv. revert i. induction Fv as [|r l rs ls H F IH]; intros [|i]; cbn [skipn].
  - reflexivity.
  - reflexivity.
  - exists l, j. auto.
  - apply IH.
Qed.
(** So the file in which lives one after the other, each killed at any moment, have left their output, holds that of the last one alone. *)
Theorem C105_file_at_crash :
  forall typ, map_str X M "sf.type" = Ok typ ->
  forall h conf d m rd fconf rs lives a t t1 txt two vj,
  policies_in conf d -> language_is conf Falco -> monitor_is conf LocalType -> mode_is conf m ->
  benign ah -> faithful h d -> (forall h', In h' (shown (a_trace a)) -> faithful h' d) -> starts h conf rd -> (forall k, (a_clk a k <= a_clk a (S k))%Z) -> SpecReader.Sane false rs ->
  attempted rd fconf rs a -> (forall s, SpecJson.clean s (txt s)) -> SpecJson.jtext version vj ->
  filed P ipstr jsonsvcs hash X M pmatch ord n ah rd fconf (enc_json X two version) (lives ++ [a]) t t1 ->
  exists recs later lns part, concat (x_batches (a_exp a)) = recs ++ later /\ Forall2 (json_line X txt two vj) recs lns /\
    t1 = (String.concat "" (map (fun l => (l ++ nl)%string) lns) ++ part)%string /\
    match later with [] => part = "" | r :: _ => exists l j, json_line X txt two vj r l /\ part = stake j l end.
Proof.
  intros typ Ht h conf d m rd fconf rs lives a t t1 txt two vj Hd Hl Hmon Hm Hb Hf Hfs Hi Mono Sn Ha Hc Hv Hfd.
  assert (Q : exists k, t1 = stake k (file_text (enc_json X two version) a)).
  { inversion Hfd as [t0 E1|as_ t0 t2 rs0 a0 k H0 H1 E1]; [now destruct lives|]. apply app_inj_tail in E1 as [_ ->]. exists k. reflexivity. }
  destruct Q as [k ->].
  exact (C105_text_at_crash typ Ht h conf d m rd fconf rs a txt two vj Hd Hl Hmon Hm Hb Hf Hfs Hi Mono Sn Ha Hc Hv k).
Qed.
(** A complete life leaves exactly its own lines in the file, whatever others left there: after any lives, killed at any moment, and a
    complete one [b], the file has the lines an uninterrupted life [a] would have written, in some order. *)
Theorem C105_same_file :
  forall typ, map_str X M "sf.type" = Ok typ ->
  forall h conf d m rd fconf rs lives t t1 a b txt two vj,
  policies_in conf d -> language_is conf Falco -> monitor_is conf NoneType -> mode_is conf m -> benign ah -> faithful h d ->
  starts h conf rd -> filter_config fconf = None -> SpecReader.Sane false rs ->
  (forall k, (a_clk a k <= a_clk a (S k))%Z) -> (forall s, SpecJson.clean s (txt s)) -> SpecJson.jtext version vj ->
  filed P ipstr jsonsvcs hash X M pmatch ord n ah rd fconf (enc_json X two version) lives t t1 ->
  attempted rd fconf rs a -> x_open (a_exp a) = false -> attempted rd fconf rs b -> x_open (a_exp b) = false ->
  exists lns lns', Permutation lns lns' /\ made_of_lines (file_text (enc_json X two version) a) lns /\
    made_of_lines (file_init true t1 ++ file_text (enc_json X two version) b) lns' /\ Forall2 (json_line X txt two vj) (concat (x_batches (a_exp a))) lns.
Proof.
  intros typ Ht h conf d m rd fconf rs lives t t1 a b txt two vj Hd Hl Hmon Hm Hb Hf Hi Ho Sn Mono Hc Hv _ (A & H & Ex) Ca (A' & H' & Ex') Cb.
  assert (Hfix : (exists d, policies_in conf d) /\ monitor_is conf NoneType \/ no_policies conf) by (left; eauto).
  destruct (life_exact P (a_clk a) ipstr jsonsvcs hash X M pmatch ord n ah rd (a_buffer a) (a_start a) (a_cap a) fconf (a_acts a) rs A Sn Ho h conf Hfix Hi (a_trace a) (a_end a) (a_exp a) H Ex)
    as (rin & more & st & ds & Es & R & _ & Al). destruct (Al Ca) as [-> Pm]. rewrite app_nil_r in Es. subst rin.
  destruct (life_exact P (a_clk b) ipstr jsonsvcs hash X M pmatch ord n ah rd (a_buffer b) (a_start b) (a_cap b) fconf (a_acts b) rs A' Sn Ho h conf Hfix Hi (a_trace b) (a_end b) (a_exp b) H' Ex')
    as (rin & more & st' & ds' & Es & R' & _ & Al'). destruct (Al' Cb) as [-> Pm']. rewrite app_nil_r in Es. subst rin. rewrite R in R'. injection R' as <- <-.
  assert (Pab : Permutation (concat (x_batches (a_exp a))) (concat (x_batches (a_exp b)))) by (etransitivity; [exact Pm|symmetry; exact Pm']).
  destruct (C91_static P (a_clk a) ipstr jsonsvcs hash X M pmatch ord n ah (a_buffer a) (a_start a) (a_cap a) typ Ht h conf d m rd fconf rs _ (a_trace a) (a_end a) (a_exp a) Hd Hl Hmon Hm Hb Hf Hi Mono A Sn H (conj Ex Ca))
    as (ds2 & out & texts & dss & os & J & Pa & T & F & Fo & Pe).
  destruct (encoded X two version (concat (x_batches (a_exp a)))) as (lns & Fln & _).
  { intros r Hr. destruct (static_in X M ipstr jsonsvcs hash fconf (events P ds2) out typ m dss os r Pa Fo (Permutation_in _ Pe Hr)) as (xe & _ & Er).
    unfold json_of. rewrite Er. apply JsonFlat.flat_encodes. }
  destruct (Permutation_Forall2 Pab Fln) as (lns' & Pl & Fln').
  assert (Xr : forall c, source_of rs (a_acts c) -> app_run_to P (a_clk c) ipstr jsonsvcs hash X M pmatch ord n ah rd (a_buffer c) (a_start c) (a_cap c) fconf (a_acts c) (a_trace c) (a_end c) ->
    c_st (a_end c) 3 = DExp (a_exp c) -> Forall (fun b => b <> []) (x_batches (a_exp c))).
  { intros c Ac Hr Ec. pose proof (app_safe _ _ _ _ _ _ _ _ _ _ _ _ _ _ (a_cap c) fconf (a_acts c) rs Ac Sn _ _ Hr) as Cr.
    destruct (snapshot _ _ _ _ _ _ _ _ _ _ _ _ _ _ (a_cap c) fconf (a_acts c) rs Ac _ _ Hr Cr) as ([done l rs' pc rd1 f rin dsx e chs ltr x' es] & K).
    destruct K as (_ & _ & _ & _ & _ & _ & _ & _ & _ & _ & _ & _ & _ & _ & _ & _ & _ & E3 & Exx & _). rewrite E3 in Ec. injection Ec as ->. rewrite Exx.
    destruct (ExportFacts.run_good (R := sfrec) (a_buffer c) (a_start c) es) as [_ G]. eapply Forall_impl; [|exact G]. intros bb [L _] ->. cbn in L. lia. }
  exists lns, lns'. split; [exact Pl|]. split; [|split].
  - unfold file_text. change "" with (file_init true ""). apply file_lines; [reflexivity|reflexivity|exact (Xr a A H Ex)|exact Fln].
  - cbn [file_init append]. unfold file_text. change "" with (file_init true ""). apply file_lines; [reflexivity|reflexivity|exact (Xr b A' H' Ex')|exact Fln'].
  - clear - Hc Hv Fln. induction Fln as [|r l rs' ls' H Fl IH]; constructor; [exact (line_value _ _ _ _ _ _ _ Hc Hv H)|assumption].
Qed.
(** But every life begins by removing the file: from a source that does not send its records again, such as a socket, what was exported
    before a restart is gone, whatever the history. *)
Theorem C105_erased_refuted :
  forall rd fconf enc lives t t1 rs, filed P ipstr jsonsvcs hash X M pmatch ord n ah rd fconf enc lives t t1 ->
  exists a, attempted rd fconf rs a /\ x_batches (a_exp a) = [] /\ filed P ipstr jsonsvcs hash X M pmatch ord n ah rd fconf enc (lives ++ [a]) t "".
Proof.
  intros rd fconf enc lives t t1 rs H.
  set (a := mkAttempt (fun _ => 0%Z) 0 0 1 (complete rs) [] (cinit (app_start rd 0 fconf (complete rs))) (x_start 0)).
  assert (A : attempted rd fconf rs a) by (split; [now right|split; [apply cr_nil|reflexivity]]).
  exists a. split; [exact A|]. split; [reflexivity|].
  exact (fd_more P ipstr jsonsvcs hash X M pmatch ord n ah rd fconf enc lives t t1 rs a 0 H A).
Qed.
End P.
Print Assumptions C105_same_index.
Print Assumptions C105_same_index_falco.
Print Assumptions C105_text_at_crash.
Print Assumptions C105_file_at_crash.
Print Assumptions C105_same_file.
Print Assumptions C105_erased_refuted.

(** The stream of C91's example in a policy directory that is not monitored: a life that is killed at once, one that is killed when
    its documents have arrived but for one, and then a complete one. *)
Definition rx_indexed rd := indexed ex_pay (fun _ => "") (fun _ => "") (fun _ => 0%Z) X0 mappers (fun _ _ => false) (fun _ _ => []) 9 ex_ah0 rd [] E0 "v" "e".
Definition rx_attempted rd := attempted ex_pay (fun _ => "") (fun _ => "") (fun _ => 0%Z) X0 mappers (fun _ _ => false) (fun _ _ => []) 9 ex_ah0 rd [].
Example C105_hypotheses_case : exists rd a ix1 ix2,
  ex_init ["a.yaml"] "none" "alert" "1" = Ok (Some rd) /\ policies_in (ex_conf "none" "alert" "1") "/pol" /\ monitor_is (ex_conf "none" "alert" "1") NoneType /\
  filter_config [] = None /\ SpecReader.Sane false ex_recs /\ rx_indexed rd ex_recs [] ix1 /\ rx_attempted rd ex_recs a /\ x_open (a_exp a) = false /\
  es_batches ix1 (map (ecs_docs X0 E0 "v" "e") (x_batches (a_exp a))) [] ix2 /\ (forall k, (a_clk a k <= a_clk a (S k))%Z).
Proof.
  assert (F : match ex_init ["a.yaml"] "none" "alert" "1" with Ok (Some rd) => Z.to_nat (c_concurrency (rd_conf rd)) = 1 | _ => False end) by (vm_compute; reflexivity).
  destruct (ex_init ["a.yaml"] "none" "alert" "1") as [[rd|]| | |] eqn:Ei; [|destruct F|destruct F|destruct F|destruct F].
  assert (Sn : SpecReader.Sane false ex_recs) by exact (proj1 C88_hypotheses_case).
  assert (H0 : ex_runs rd (complete ex_recs) [] (cinit (app_start rd 0 [] (complete ex_recs)))) by apply cr_nil.
  destruct (C91_completes _ _ _ _ _ _ _ _ _ _ _ _ _ _ rd [] ex_recs _ _ ltac:(auto) ltac:(rewrite F; auto) Sn H0) as (tr & s & H & D & _).
  destruct D as (_ & _ & _ & x & D1 & D2). cbn [List.app] in H.
  set (a0 := mkAttempt (fun k => Z.of_nat k) 2 0 1 (complete ex_recs) [] (cinit (app_start rd 0 [] (complete ex_recs))) (x_start 0)).
  set (a := mkAttempt (fun k => Z.of_nat k) 2 0 1 (complete ex_recs) tr s x).
  assert (A0 : rx_attempted rd ex_recs a0) by (split; [now right|split; [exact H0|reflexivity]]).
  assert (A : rx_attempted rd ex_recs a) by (split; [now right|split; [exact H|exact D1]]).
  assert (L : exists lost ix1, es_batches [] (map (ecs_docs X0 E0 "v" "e") (x_batches x)) lost ix1).
  { generalize (map (ecs_docs X0 E0 "v" "e") (x_batches x)) as bs. intros [|[|d b] bs].
    - exists [], []. constructor.
    - destruct (all_arrive bs []) as (ix1 & Hx). exists ([] ++ []), ix1. apply (es_batch [] [] [] [] bs [] ix1); [apply perm_nil|exact Hx].
    - destruct (all_arrive bs (es_export [] b)) as (ix1 & Hx). exists ([d] ++ []), ix1. apply (es_batch [] (d :: b) b [d] bs [] ix1); [apply Permutation_cons_append|exact Hx]. }
  destruct L as (lost & ix1 & L). destruct (all_arrive (map (ecs_docs X0 E0 "v" "e") (x_batches x)) ix1) as (ix2 & L2).
  exists rd, a, ix1, ix2. split; [reflexivity|]. split; [split; [reflexivity|discriminate]|]. split; [left; exists "none"; split; [reflexivity|left; left; reflexivity]|].
  split; [reflexivity|]. split; [exact Sn|]. split.
  { eapply ix_more with (a := a) (some := ex_recs) (more := []); [|symmetry; apply app_nil_r|exact A|exact L].
    eapply ix_more with (a := a0) (some := ex_recs) (more := []) (lost := []); [apply ix_none|symmetry; apply app_nil_r|exact A0|apply es_done]. }
  split; [exact A|]. split; [exact D2|]. split; [exact L2|]. intros k. cbn [a_clk a]. lia.
Qed.
