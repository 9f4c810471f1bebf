(** * OtelEngineFacts: the policy engine on OpenTelemetry logs. *)
From Coq Require Import Lia Permutation.
From Verif Require Import GoBase GoFacts Predicates SpecStrings FalcoModel SpecFalco FalcoFacts FalcoFacts2 FalcoFacts3 SigmaModel SpecSigma SigmaFacts LexerModel SpecLexer LexerFacts5 TextFacts
  EngineModel SpecEngine EngineFacts EngineFacts2 OtelModel SpecOtel OtelFacts OtelEngine PoolModel SpecPool PoolFacts4 MonitorModel SpecMonitor InitModel SpecInit InitFacts LiveFacts SpecOtelEngine.

Section O.
Variable D : Type.
Variable parse_float : string -> option D.
Variables deq dlt dle : D -> D -> bool.
Variable regcomp : string -> option (string -> string).
Variable enum : logs D -> rule (logs D) -> list string -> list string.
Hypothesis Henum : forall r ru l, Permutation (enum r ru l) l.
Notation logs := (logs D).
Notation ops := (o_ops D parse_float deq dlt dle regcomp).
Notation atomic_of := (o_atomic D parse_float deq dlt dle).
Notation satomic_of := (o_satomic D parse_float deq dlt dle regcomp).
Notation test := (test D parse_float deq dlt dle).
Notation any_rel := (any_rel D parse_float deq dlt dle).
Notation crit := (o_crit D).

Lemma crashes_rel op v x : crashes D op v -> ~ any_rel op v x.
Proof.
  destruct v as [s|[[|e l]|]|b|s|d|z|[l|]| |]; cbn; try tauto; destruct op; try tauto; intros _.
  - intros (l & E). discriminate.
  - intros (s & l & E & _). discriminate.
  - intros (l & E). destruct l; discriminate.
  - intros (s & l & E & _). destruct l; discriminate.
Qed.
Lemma helper_test k x op l : (match compare_helper D parse_float deq dlt dle k x op l with Ok b => b | _ => false end) = true <-> exists v, decides D k l v /\ any_rel op v x.
Proof.
  destruct (helper_spec D parse_float deq dlt dle k x op l) as (P & Q & [R|(b & R)]); rewrite R.
  - apply P in R as (v & A & B). split; [discriminate|]. intros (w & H & K). exfalso. rewrite <- (decides_fun D parse_float k l v A w H) in K. exact (crashes_rel _ _ _ B K).
  - exact (Q b R).
Qed.
Lemma test_spec r k op x : crit (o_compare D parse_float deq dlt dle k x op) r = true <-> test r k op x.
Proof.
  unfold o_crit, o_compare, SpecOtelEngine.test, log_attrs. rewrite all_attrs_spec. destruct (l_resource D r) as [a|]; cbn [rbind].
  - apply helper_test.
  - split; [discriminate|]. intros (v & H & _). inversion H.
Qed.
Lemma any_test r k op ys : crit (o_foldany D parse_float deq dlt dle k ys op) r = true <-> exists x, In x ys /\ test r k op x.
Proof.
  unfold o_crit, o_foldany, SpecOtelEngine.test, log_attrs. rewrite all_attrs_spec. destruct (l_resource D r) as [a|]; cbn [rbind].
  - generalize (attributes D a (l_scopes D r)). intros l. induction ys as [|y ys IH]; cbn [fold_any].
    + split; [discriminate|]. intros (x & [] & _).
    + pose proof (helper_test k y op l) as T. destruct (helper_spec D parse_float deq dlt dle k y op l) as (P & _ & [R|(b & R)]); rewrite R in T |- *; cbn [rbind].
      * apply P in R as (v & A & B). split; [discriminate|]. intros (x & _ & w & H & K). exfalso.
        rewrite <- (decides_fun D parse_float k l v A w H) in K. exact (crashes_rel _ _ _ B K).
      * destruct b; [split; [intros _; exists y; split; [now left|tauto]|reflexivity]|]. rewrite IH. split.
        -- intros (x & H & K). exists x. split; [now right|assumption].
        -- intros (x & [<-|H] & K); [apply T in K; discriminate|eauto].
  - split; [discriminate|]. intros (x & _ & v & H & _). inversion H.
Qed.
Lemma o_models r : models ops r (atomic_of r).
Proof.
  split; [|split].
  - intros a c [= <-]. cbn. unfold o_crit, log_attrs. destruct (l_resource D r) as [x|] eqn:E.
    + destruct (exists_spec D a r x E) as (b & -> & H). exact H.
    + unfold o_exists. rewrite all_attrs_spec, E. cbn. split; [discriminate|]. intros (v & []).
  - intros l rr op c [= <-]. apply test_spec.
  - intros l ys op c [= <-]. apply any_test.
Qed.
Lemma first_fun k l v w : first_value D k l v -> first_value D k l w -> v = w.
Proof.
  intros (p1 & q1 & -> & H1) (p2 & q2 & E & H2). revert p2 E H2. induction p1 as [|[k1 w1] p1 IH]; intros [|[k2 w2] p2] E H2; cbn in E.
  - congruence.
  - injection E as E1 E2 E3. subst. destruct (H2 w2). now left.
  - injection E as E1 E2 E3. subst. destruct (H1 w). now left.
  - injection E as E1 E2 E3. subst. apply (IH (fun y Hy => H1 y (or_intror Hy)) p2 E3 (fun y Hy => H2 y (or_intror Hy))).
Qed.
Lemma o_smodels r : smodels ops r (satomic_of r).
Proof.
  split.
  - intros l rr op c [= <-]. apply test_spec.
  - intros l re c H. cbn in H. destruct (regcomp re) as [find|] eqn:E; [|discriminate]. injection H as <-. cbn. unfold o_crit, log_attrs.
    destruct (l_resource D r) as [x|] eqn:Er.
    + destruct (regexp_spec D find l r x Er) as (P & Q & [R|(b & R)]); rewrite R.
      * apply P in R. split; [discriminate|]. intros (f & s & _ & H & _). exfalso. pose proof (first_fun _ _ _ _ R H). discriminate.
      * rewrite (Q b R). split; [intros (s & H1 & H2); eauto|]. intros (f & s & H0 & H1 & H2). rewrite H0 in E. injection E as ->. eauto.
    + unfold o_regexp. rewrite all_attrs_spec, Er. cbn. split; [discriminate|]. intros (f & s & _ & H & _). now apply first_none in H.
Qed.

(** ** Annotation *)
Notation noted := (noted D).
Notation regular := (regular D).
Notation add := (o_add D enum).
Lemma add_noted r ru : regular r ->
  exists ts, noted (r_name ru) ts r (add r ru) /\ regular (add r ru) /\ Permutation ts (tag_set [(r_name ru, r_tags ru)]).
Proof.
  intros (res & scopes & F & Sh).
  set (e := enum r ru). set (h := [(e, [(r_name ru, r_tags ru)])]).
  assert (A : forall r0 r1, annotations D h r0 = Ok r1 -> o_addrules D e [(r_name ru, r_tags ru)] r0 = Ok r1).
  { intros r0 r1 H. cbn in H. destruct (o_addrules D e _ r0); cbn in H; congruence. }
  exists (e (tag_set [(r_name ru, r_tags ru)])). unfold o_add. fold e.
  assert (Eh : names h = [r_name ru] /\ tags h = e (tag_set [(r_name ru, r_tags ru)])) by (unfold names, tags, h; cbn [flat_map fst snd map]; rewrite !app_nil_r; auto). destruct Eh as [E1 E2].
  destruct Sh as [Sh|(rs & ts0 & Sh)].
  - pose proof (annotations_spec D parse_float h res scopes F ltac:(discriminate)) as Q. rewrite <- Sh in Q. rewrite (A _ _ Q), E1, E2. subst r.
    split; [now constructor|]. split; [|apply Henum]. exists res, scopes. split; [assumption|]. right. eauto.
  - pose proof (annotations_more D parse_float h res scopes rs ts0 F) as Q. rewrite <- Sh in Q. rewrite (A _ _ Q), E1, E2. subst r.
    split; [now constructor|]. split; [|apply Henum]. exists res, scopes. split; [assumption|]. right. eauto.
Qed.

(** ** A worker *)
Section Turn.
Context {A : Type}.
Variables (fires : A -> logs -> Prop) (tells : A -> logs -> logs -> Prop) (Q : A -> rule logs -> Prop).
Variable ah : ahandler logs.
Hypothesis Hah : harmless D ah.
Hypothesis Hf : forall a ru r, Q a ru -> (r_enabled ru = true /\ r_cond ru r = true <-> fires a r).
Hypothesis Ht : forall a ru r, Q a ru -> regular r -> tells a r (add r ru).
Lemma actions_same ru r : fst (handle_actions ah ru r) = r /\ outs (snd (handle_actions ah ru r)) = [].
Proof.
  unfold handle_actions. revert r. induction (r_actions ru) as [|a l IH]; intros r; [split; reflexivity|]. cbn [run_actions].
  destruct (find_action ah a) as [f|] eqn:E; [|apply IH]. pose proof (Hah a f r E) as H. destruct (f r) as [r1 b]. cbn in H. subst r1.
  specialize (IH r). destruct (run_actions ah l r) as [r2 es]. cbn in *. tauto.
Qed.
Lemma apply_in_turn l rules : Forall2 Q l rules -> forall r b, regular r ->
  let '(r', mt, es) := apply_rules (o_applicable D) add ah rules r b in
  exists fired, in_turn D fires tells l r fired r' /\ outs es = [] /\ (mt = true <-> b = true \/ fired <> []).
Proof.
  induction 1 as [|a ru l rules Ha F IH]; intros r b Hr; cbn [apply_rules].
  - exists []. split; [constructor|]. split; [reflexivity|]. split; [auto|intros [?|?]; [assumption|congruence]].
  - destruct (r_enabled ru && o_applicable D r ru && c_eval (r_cond ru) r)%bool eqn:E.
    + apply andb_true_iff in E as [E E2]. apply andb_true_iff in E as [E1 _].
      pose proof (actions_same ru (add r ru)) as [H1 H2]. destruct (handle_actions ah ru (add r ru)) as [r2 es]. cbn [fst snd] in H1, H2. subst r2.
      destruct (add_noted r ru Hr) as (_ & _ & Hr' & _). specialize (IH (add r ru) true Hr').
      destruct (apply_rules (o_applicable D) add ah rules (add r ru) true) as [[r3 mt] es']. destruct IH as (fired & I1 & I2 & I3).
      exists (a :: fired). split; [econstructor; [apply (Hf a ru r Ha); auto|apply Ht; eassumption|exact I1]|].
      change (outs (FAnnot ru :: es ++ es')) with (outs (es ++ es')). rewrite outs_app, H2, I2. split; [reflexivity|]. rewrite I3. split; intros _; [right; discriminate|auto].
    + specialize (IH r b Hr). destruct (apply_rules (o_applicable D) add ah rules r b) as [[r3 mt] es']. destruct IH as (fired & I1 & I2 & I3).
      exists fired. split; [constructor; [|exact I1]|auto]. intros K. apply (Hf a ru r Ha) in K as [K1 K2]. unfold c_eval, o_applicable in E. rewrite K1, K2 in E. discriminate.
Qed.
Lemma work_in_turn l rules filters m drop r : Forall2 Q l rules -> regular r ->
  ((exists f, In f filters /\ f_enabled f = true /\ f_cond f r = true) <-> drop) ->
  o_outcome D drop l fires tells m r (outs (snd (o_work D enum ah m filters rules r))).
Proof.
  intros F Hr Hd. unfold o_work, work. destruct (eval_filters filters r) eqn:E.
  - left. split; [|reflexivity]. apply Hd. apply eval_filters_spec in E. exact E.
  - right. split.
    { intros K. apply Hd in K. apply (eval_filters_spec filters r) in K. congruence. }
    pose proof (apply_in_turn l rules F r (match m with EnrichMode => true | AlertMode => false end) Hr) as T.
    destruct (apply_rules (o_applicable D) add ah rules r _) as [[r' mt] es]. destruct T as (fired & T1 & T2 & T3). exists fired, r'. split; [exact T1|].
    cbn [snd]. destruct mt.
    + right. rewrite outs_app, T2. split; [|reflexivity]. destruct m; [auto|]. destruct T3 as [T3 _]. destruct (T3 eq_refl); [discriminate|auto].
    + left. rewrite T2. destruct m; [destruct T3 as [_ T3]; discriminate T3; auto|]. split; [reflexivity|]. split; [|reflexivity].
      destruct fired; [reflexivity|]. destruct T3 as [_ T3]. discriminate T3. right. discriminate.
Qed.
End Turn.

(** ** Falco policies *)
Notation rule_fires := (o_rule_fires D parse_float deq dlt dle).
Notation filter_fires := (o_filter_fires D parse_float deq dlt dle).
Lemma o_fires_decl od ru r : rule_of ops od ru -> (r_enabled ru = true /\ r_cond ru r = true <-> rule_fires od r).
Proof.
  destruct od as [o d]. intros (_ & _ & He & _ & _ & _ & _ & _ & Hc). unfold o_rule_fires.
  assert (E : r_enabled ru = true <-> ~ (exists s, first_such is_enabled_opt (rd_opts d) (OEnabled s) /\ off_word s)).
  { rewrite <- He. destruct (r_enabled ru); split; congruence. }
  rewrite E. pose proof (Hc r _ (o_models r)) as Hv. unfold c_eval in Hv. split.
  - intros (A1 & A3). rewrite A3 in Hv. auto.
  - intros (A1 & A3). split; auto.
    destruct (ev_det_any (oc_macros o) (oc_lists o) (atomic_of r)) as (_ & Dt & _). symmetry. eapply Dt; eauto.
Qed.
Lemma o_filter_decl od f r : filter_of ops od f -> (f_enabled f = true /\ f_cond f r = true) <-> filter_fires od r.
Proof.
  destruct od as [o d]. intros (_ & He & Hc). unfold o_filter_fires.
  assert (E : f_enabled f = true <-> ~ (exists s, fd_enabled d = Some s /\ off_word s)).
  { rewrite <- He. destruct (f_enabled f); split; congruence. }
  rewrite E. pose proof (Hc r _ (o_models r)) as Hv. unfold c_eval in Hv. split.
  - intros (A1 & A2). rewrite A2 in Hv. auto.
  - intros (A1 & A2). split; auto.
    destruct (ev_det_any (oc_macros o) (oc_lists o) (atomic_of r)) as (_ & Dt & _). symmetry. eapply Dt; eauto.
Qed.
Lemma o_told od ru r : rule_of ops od ru -> regular r -> told D od r (add r ru).
Proof.
  intros H Hr. destruct od as [o d]. destruct H as (Hn & _ & _ & _ & _ & _ & _ & (ts0 & Hl & Ht) & _).
  destruct (add_noted r ru Hr) as (ts & N & _ & Pm). exists ts0, ts. cbn [snd]. rewrite <- Hn. split; [assumption|].
  split; [eapply Permutation_NoDup; [symmetry; exact Pm|apply tag_set_nodup]|]. split; [|exact N].
  intros t. split.
  - intros Hi. apply (Permutation_in _ Pm), tag_set_spec in Hi as (r0 & tg & [<-|[]] & H1 & H2). cbn [snd] in H1.
    destruct Ht as [[Ht ->]|Ht]; rewrite Ht in H1; [destruct H1|]. destruct H1 as [<-|[]]. exact H2.
  - intros Hi. apply (Permutation_in _ (Permutation_sym Pm)), tag_set_spec. exists (r_name ru, r_tags ru). destruct Ht as [[_ ->]|Ht]; [destruct Hi|].
    exists (TagList ts0). rewrite Ht. cbn. auto.
Qed.
Lemma falco_logs n dss rules filters ah m r :
  files_plain (map (fun ds => Some (ds, false)) dss) -> harmless D ah -> regular r ->
  compile ops n (map (fun ds => Some (ds, false)) dss) = Ok (Some (rules, filters)) ->
  o_disposed D parse_float deq dlt dle dss m r (outs (snd (o_work D enum ah m filters rules r))).
Proof.
  intros Hp Hah Hr Hc. destruct (compile_ok ops n _ rules filters Hp Hc) as (_ & F1 & F2). fold (declared dss) in F1, F2.
  unfold o_disposed. apply work_in_turn with (Q := rule_of ops); auto.
  - intros a ru q H. apply o_fires_decl. exact H.
  - intros a ru q H. apply o_told. exact H.
  - clear - F2. split.
    + intros (f & H1 & H2 & H3). induction F2 as [|od g ods fl H F IH]; [destruct H1|]. destruct H1 as [<-|H1].
      * exists od. split; [now left|]. apply (o_filter_decl od g r H). auto.
      * destruct (IH H1) as (od' & ? & ?). exists od'. split; [now right|assumption].
    + intros (od & H1 & H2). induction F2 as [|od' g ods fl H F IH]; [destruct H1|]. destruct H1 as [<-|H1].
      * exists g. split; [now left|]. apply (o_filter_decl od' g r H). exact H2.
      * destruct (IH H1) as (f & ? & ?). exists f. split; [now right|assumption].
Qed.
Lemma compiled_good_any (R : Type) (op : operations R) n fs x : compile op n fs = Ok (Some x) -> Forall file_good fs.
Proof.
  intros Hc. destruct (@compile_files_err R op n fs _ _ Hc) as [_ H2].
  assert (Dd : forall g : file, file_good g \/ ~ file_good g).
  { intros [[ds [|]]|]; [right|left|right]; try (intros (z & E); discriminate E). now exists ds. }
  assert (DD : Forall file_good fs \/ ~ Forall file_good fs).
  { clear - Dd. induction fs as [|g fs [IH|IH]]; [left; constructor| |right; intros H; inversion H; auto].
    destruct (Dd g); [left; constructor; auto|right; intros H'; inversion H'; auto]. }
  destruct DD as [DD|DD]; [assumption|]. specialize (H2 DD). discriminate.
Qed.
Lemma interpreter_logs pmatch ord n h conf d ah m p :
  policies_in conf d -> language_is conf Falco -> harmless D ah -> faithful h d ->
  create_interpreter ops pmatch ord n h (fst (create_config conf)) = Ok (Some p) ->
  exists dss, (exists texts, texts_of h d texts /\ Forall2 text_reads texts dss) /\
    forall r, regular r -> o_disposed D parse_float deq dlt dle dss m r (outs (snd (o_work D enum ah m (fst p) (snd p) r))).
Proof.
  intros Hd Hl Hb [Hperf Htx] Hc.
  apply (create_iff _ _ _ _ h conf d p Hd) in Hc as (rules & C & Er).
  rewrite Hperf in Er. unfold bench_rules in Er. rewrite Er.
  destruct C as [paths _ Hr Nn Hc|? ? ? Hl' _ _ _ _ _ _].
  2:{ pose proof (word_option_fun _ _ _ _ _ _ _ language_fun Hl Hl'). discriminate. }
  assert (P : Forall2 parsed (map (h_text h) paths) (map (h_falco h) paths)).
  { specialize (fun q => Htx paths q Hr). clear - Htx. induction paths as [|q paths IH]; cbn; constructor; [apply Htx; now left|].
    apply IH. intros q' Hq. apply Htx. now right. }
  destruct (parsed_good _ _ P (compiled_good_any _ _ _ _ _ Hc)) as (dss & F & Efs).
  exists dss. split; [exists (map (h_text h) paths); split; [exists paths; auto|assumption]|].
  assert (Hok : forall t, In t (map (h_text h) paths) -> ok_text t).
  { intros t Ht. apply in_map_iff in Ht as (q & <- & Hq). exact (proj2 (Htx paths q Hr Hq)). }
  destruct (texts_files _ _ F Hok) as [Hpl _]. rewrite Efs in Hc.
  intros r Rg. exact (falco_logs n dss rules (fst p) ah m r Hpl Hb Rg Hc).
Qed.

(** ** Sigma rules *)
Lemma sigma_logs maps pmatch srs rules ah m r : harmless D ah -> regular r -> Forall2 (srule_of ops maps pmatch) (s_conditions srs) rules ->
  so_disposed D parse_float deq dlt dle regcomp pmatch maps srs m r (outs (snd (o_work D enum ah m [] rules r))).
Proof.
  intros Hah Hr F. unfold so_disposed. apply work_in_turn with (Q := srule_of ops maps pmatch); auto.
  - intros [q e] ru x (_ & _ & _ & _ & _ & _ & He & H). rewrite He, (H x _ (o_smodels x)). cbn [fst snd]. tauto.
  - intros [q e] ru x (Hn & _ & _ & Ht & _) Rx. destruct (add_noted x ru Rx) as (ts & N & _ & Pm). exists ts. cbn [fst]. rewrite <- Hn.
    split; [eapply Permutation_NoDup; [symmetry; exact Pm|apply tag_set_nodup]|]. split; [|exact N]. intros t. split.
    + intros Hi. apply (Permutation_in _ Pm), tag_set_spec in Hi as (r0 & tg & [<-|[]] & H1 & H2). cbn [snd] in H1. rewrite Ht in H1.
      apply in_map_iff in H1 as (s & <- & Hs). destruct H2 as [<-|[]]. exact Hs.
    + intros Hi. apply (Permutation_in _ (Permutation_sym Pm)), tag_set_spec. exists (r_name ru, r_tags ru), (TagStr t). cbn [snd]. rewrite Ht.
      split; [now left|]. split; [now apply in_map|now left].
  - split; [intros (f & [] & _)|intros []].
Qed.
Lemma interpreter_slogs pmatch ord n (Hord : forall r p, Permutation (ord r p) (sr_searches r)) h conf d ah m p :
  policies_in conf d -> language_is conf Sigma -> harmless D ah -> h_perf h = false ->
  create_interpreter ops pmatch ord n h (fst (create_config conf)) = Ok (Some p) ->
  exists ms, sigma_of h conf d ms /\
    forall r, regular r -> so_disposed D parse_float deq dlt dle regcomp pmatch (fst ms) (snd ms) m r (outs (snd (o_work D enum ah m (fst p) (snd p) r))).
Proof.
  intros Hd Hl Hb Hperf Hc.
  apply (create_iff _ _ _ _ h conf d p Hd) in Hc as (rules & C & Er).
  rewrite Hperf in Er. unfold bench_rules in Er. rewrite Er.
  destruct C as [paths Hl' _ _ _|paths cfg maps _ Hr Nn Hcfg Hs Hc Hf].
  { pose proof (word_option_fun _ _ _ _ _ _ _ language_fun Hl Hl'). discriminate. }
  rewrite Hf.
  destruct (s_compile_spec ops maps pmatch ord Hord _ _ Hc) as (srs & Rd & F1).
  exists (maps, srs). split; [exists paths, cfg; cbn [fst snd]; auto|]. intros r Rg. exact (sigma_logs maps pmatch srs rules ah m r Hb Rg F1).
Qed.

(** ** Conditions that look away from the annotations *)
Lemma ev_away macros lists A B (P : string -> Prop) :
  (forall k, P k -> (a_exists A k <-> a_exists B k)) ->
  (forall k op x, P k -> (a_cmp A k op x <-> a_cmp B k op x)) ->
  (forall k op ys, P k -> (a_any A k op ys <-> a_any B k op ys)) ->
  (forall x e k, macros x = Some e -> In k (expr_operands e) -> P k) ->
  (forall t v, tv macros lists A t v -> (forall k, In k (term_operands t) -> P k) -> tv macros lists B t v) /\
  (forall e v, ev macros lists A e v -> (forall k, In k (expr_operands e) -> P k) -> ev macros lists B e v) /\
  (forall c v, cv macros lists A c v -> (forall k, In k (concat (map term_operands c)) -> P k) -> cv macros lists B c v).
Proof.
  intros H1 H2 H3 HM. apply tv_ev_cv.
  - intros x e v E _ IH _. econstructor; [exact E|]. apply IH. intros k. now apply (HM x).
  - intros x E _. now constructor.
  - intros t v _ IH Hk. constructor. now apply IH.
  - intros a v Hv Hk. constructor. rewrite Hv. apply H1, Hk. now left.
  - intros l op r v Hv Hk. constructor. rewrite Hv. assert (Pl : P l) by (apply Hk; now left). destruct op; cbn; rewrite ?(H2 _ _ _ Pl); reflexivity.
  - intros a args ys v Ha Hv Hk. econstructor; [exact Ha|]. rewrite Hv. apply H3, Hk. now left.
  - intros a args ys v Ha Hv Hk. econstructor; [exact Ha|]. rewrite Hv. apply H3, Hk. now left.
  - intros e v _ IH Hk. constructor. now apply IH.
  - intros _. constructor.
  - intros c e vc ve _ I1 _ I2 Hk. constructor; [apply I1|apply I2]; intros k Hi; apply Hk; unfold expr_operands; cbn [map concat]; apply in_or_app; auto.
  - intros _. constructor.
  - intros t c vt vc _ I1 _ I2 Hk. constructor; [apply I1|apply I2]; intros k Hi; apply Hk; cbn [map concat]; apply in_or_app; auto.
Qed.
Lemma env_operands (P : string -> Prop) o : (forall d a, In d (oc_earlier o ++ oc_pre o ++ oc_whole o) -> In a (decl_operands d) -> P a) -> op_env P (oc_macros o).
Proof.
  intros HP x e a. unfold oc_macros, visible, orelse.
  assert (G1 : op_env P (fun x => last_def macro_def x (oc_pre o))) by (apply last_def_operands; intros d' a' Hd'; apply HP; rewrite !in_app_iff; auto).
  assert (G2 : op_env P (fun x => last_def macro_def x (oc_whole o))) by (apply last_def_operands; intros d' a' Hd'; apply HP; rewrite !in_app_iff; auto).
  assert (G3 : op_env P (fun x => last_def macro_def x (oc_earlier o))) by (apply last_def_operands; intros d' a' Hd'; apply HP; rewrite !in_app_iff; auto).
  specialize (G1 x e a); specialize (G2 x e a); specialize (G3 x e a); cbn in *.
  destruct (last_def macro_def x (oc_pre o)); auto. destruct (last_def macro_def x (oc_whole o)); auto.
Qed.
Lemma occs_in_from (P : string -> Prop) earlier whole ds : forall pre, whole = pre ++ ds ->
  (forall d a, In d (earlier ++ whole) -> In a (decl_operands d) -> P a) ->
  forall o, In o (occs_in earlier pre whole ds) ->
  op_env P (oc_macros o) /\ (forall a, In a (decl_operands (oc_decl o)) -> P a).
Proof.
  induction ds as [|d ds IH]; intros pre E HP o Ho; cbn in Ho; [destruct Ho|]. destruct Ho as [<-|Ho].
  - split.
    + apply env_operands. cbn. intros d' a Hd. apply HP. subst whole. rewrite !in_app_iff in *. cbn in *. tauto.
    + cbn. intros a. apply HP. subst whole. rewrite !in_app_iff. right. right. now left.
  - apply (IH (pre ++ [d])); auto. rewrite <- app_assoc. exact E.
Qed.
Lemma occs_from (P : string -> Prop) dss : forall earlier,
  (forall d a, In d earlier -> In a (decl_operands d) -> P a) ->
  (forall ds d a, In ds dss -> In d ds -> In a (decl_operands d) -> P a) ->
  forall o, In o (occs earlier (map (fun ds => Some (ds, false)) dss)) ->
  op_env P (oc_macros o) /\ (forall a, In a (decl_operands (oc_decl o)) -> P a).
Proof.
  induction dss as [|ds dss IH]; intros earlier HE HP o Ho; cbn in Ho; [destruct Ho|].
  apply in_app_or in Ho as [Ho|Ho].
  - apply (occs_in_from P earlier ds ds [] eq_refl) in Ho; [exact Ho|].
    intros d a Hd. apply in_app_or in Hd as [Hd|Hd]; [now apply HE|]. apply (HP ds); [now left|assumption].
  - apply (IH (earlier ++ ds)); auto.
    + intros d a Hd. apply in_app_or in Hd as [Hd|Hd]; [now apply HE|]. apply (HP ds); [now left|assumption].
    + intros ds' d a H. apply HP. now right.
Qed.
Lemma rule_occs_in od os : In od (rule_occs os) -> In (fst od) os /\ oc_decl (fst od) = DRule (snd od).
Proof.
  induction os as [|o os IH]; cbn; [intros []|]. destruct (oc_decl o) eqn:E; try (intros H; apply IH in H as [? ?]; auto; fail).
  intros [<-|H]; [cbn; auto|]. apply IH in H as [? ?]. auto.
Qed.
(** Keys that are not the processor's do not see its scope. *)
Lemma own_attrs res scopes rs ts : log_attrs D (mkLogs D res (scopes ++ [own D rs ts])) =
  match res with Some _ => log_attrs D (mkLogs D res scopes) ++ [(RULES, arr D rs); (TAGS, arr D ts)] | None => [] end.
Proof.
  unfold log_attrs. destruct res as [a|]; [|reflexivity]. cbn [l_resource l_scopes]. unfold attributes. rewrite flat_map_app, app_assoc. f_equal.
Qed.
Lemma decides_skip k l v : k <> RULES -> k <> TAGS -> forall x y, decides D k (l ++ [(RULES, x); (TAGS, y)]) v <-> decides D k l v.
Proof.
  intros H1 H2 x y. split.
  - remember (l ++ [(RULES, x); (TAGS, y)]) as l' eqn:E. intros H. revert l E. induction H as [k' w l' v Hk H IH|l' v H IH|w l' Hl|l1 l' v H IH]; intros l E.
    + destruct l as [|[k0 w0] l]; cbn in E.
      * injection E as E1 E2 E3. subst l'. inversion H; subst; try congruence.
      * injection E as E1 E2 E3. subst. apply D_other; auto.
    + destruct l as [|[k0 w0] l]; cbn in E; [congruence|]. injection E as E1 E2 E3. subst. apply D_unset. auto.
    + destruct l as [|[k0 w0] l]; cbn in E; [congruence|]. injection E as E1 E2 E3. subst. now apply D_leaf.
    + destruct l as [|[k0 w0] l]; cbn in E; [congruence|]. injection E as E1 E2 E3. subst. now apply D_nested.
  - intros H. induction H; cbn [List.app]; econstructor; eassumption.
Qed.
Definition base (r : logs) (res : option (kvs D)) (scopes : list (scopelog D)) : Prop :=
  Forall (foreign D) scopes /\ (r = mkLogs D res scopes \/ exists rs ts, r = mkLogs D res (scopes ++ [own D rs ts])).
Lemma base_decides r res scopes k v : base r res scopes -> ~ own_key k -> (decides D k (log_attrs D r) v <-> decides D k (log_attrs D (mkLogs D res scopes)) v).
Proof.
  intros (_ & [-> |(rs & ts & ->)]) Hk; [reflexivity|]. rewrite own_attrs. destruct res as [a|]; [|reflexivity].
  apply decides_skip; intros ->; apply Hk; [now left|now right].
Qed.
Lemma base_in r res scopes k : base r res scopes -> ~ own_key k -> ((exists v, In (k, v) (log_attrs D r)) <-> exists v, In (k, v) (log_attrs D (mkLogs D res scopes))).
Proof.
  intros (_ & [-> |(rs & ts & ->)]) Hk; [reflexivity|]. rewrite own_attrs. destruct res as [a|]; [|reflexivity].
  split; intros (v & H); exists v; rewrite ?in_app_iff in *; [|auto]. destruct H as [H|[H|[H|[]]]]; [assumption| |]; injection H as <- _; destruct Hk; [now left|now right].
Qed.
Lemma base_noted n ts r r1 res scopes : base r res scopes -> noted n ts r r1 -> base r1 res scopes.
Proof.
  intros (F & H) N. split; [assumption|]. right. destruct N as [res' sc' F'|res' sc' rs0 ts0 F'].
  - destruct H as [H|(rs & ts1 & H)]; injection H as -> E; [subst; eauto|]. exfalso.
    rewrite E in F'. apply Forall_app in F' as [_ F']. inversion F' as [|? ? G _]. exact (G _ eq_refl eq_refl).
  - destruct H as [H|(rs & ts1 & H)]; injection H as -> E.
    + exfalso. rewrite <- E in F. apply Forall_app in F as [_ F]. inversion F as [|? ? G _]. exact (G _ eq_refl eq_refl).
    + apply app_inj_tail in E as [-> E]. eauto.
Qed.
Lemma away_fires dss od r res scopes : looks_away dss -> In od (rule_occs (declared dss)) -> base r res scopes ->
  (rule_fires od r <-> rule_fires od (mkLogs D res scopes)).
Proof.
  intros Aw Ho B. destruct (rule_occs_in _ _ Ho) as [Hi Hd].
  destruct (occs_from (fun k => ~ own_key k) dss [] ltac:(intros ? ? []) Aw _ Hi) as [HM HO]. rewrite Hd in HO. cbn [decl_operands] in HO.
  destruct od as [o d]. cbn [fst snd] in *.
  assert (T : forall k op x, ~ own_key k -> (test r k op x <-> test (mkLogs D res scopes) k op x)).
  { intros k op x Hk. unfold SpecOtelEngine.test. split; intros (v & H & K); exists v; (split; [apply (base_decides r res scopes k v B Hk); assumption|assumption]). }
  unfold o_rule_fires. split; intros (H1 & H2); (split; [assumption|]).
  - destruct (ev_away (oc_macros o) (oc_lists o) (atomic_of r) (atomic_of (mkLogs D res scopes)) (fun k => ~ own_key k)) as (_ & E & _); [| | |exact HM|apply E; assumption].
    + intros k Hk. apply base_in; assumption.
    + intros k op x Hk. apply T, Hk.
    + intros k op ys Hk. cbn. split; intros (x & Hx & H); exists x; (split; [assumption|]); apply T; assumption.
  - destruct (ev_away (oc_macros o) (oc_lists o) (atomic_of (mkLogs D res scopes)) (atomic_of r) (fun k => ~ own_key k)) as (_ & E & _); [| | |exact HM|apply E; assumption].
    + intros k Hk. symmetry. apply base_in; assumption.
    + intros k op x Hk. symmetry. apply T, Hk.
    + intros k op ys Hk. cbn. split; intros (x & Hx & H); exists x; (split; [assumption|]); apply T; assumption.
Qed.
Lemma noted_own n ts res scopes rs ts1 r1 : Forall (foreign D) scopes -> noted n ts (mkLogs D res (scopes ++ [own D rs ts1])) r1 ->
  r1 = mkLogs D res (scopes ++ [own D (rs ++ [n]) (ts1 ++ ts)]).
Proof.
  intros F N. remember (mkLogs D res (scopes ++ [own D rs ts1])) as r eqn:E. destruct N as [res' sc' F'|res' sc' rs0 ts0 F']; injection E as -> E.
  - exfalso. rewrite E in F'. apply Forall_app in F' as [_ F']. inversion F' as [|? ? G _]. exact (G _ eq_refl eq_refl).
  - apply app_inj_tail in E as [-> E]. injection E as E1 E3.
    assert (Inj : forall u w, map EStr u = map EStr w -> u = w) by (induction u; intros [|? w] Q; cbn in Q; try discriminate; [reflexivity|]; injection Q as -> Q; f_equal; auto).
    apply Inj in E1, E3. now subst.
Qed.
Lemma noted_new n ts res scopes r1 : Forall (foreign D) scopes -> noted n ts (mkLogs D res scopes) r1 -> r1 = mkLogs D res (scopes ++ [own D [n] ts]).
Proof.
  intros F N. remember (mkLogs D res scopes) as r eqn:E. destruct N as [res' sc' F'|res' sc' rs0 ts0 F']; injection E as -> E; [now subst|].
  exfalso. rewrite <- E in F. apply Forall_app in F as [_ F]. inversion F as [|? ? G _]. exact (G _ eq_refl eq_refl).
Qed.
Lemma in_turn_away dss l r fired r' res scopes : looks_away dss -> incl l (rule_occs (declared dss)) -> base r res scopes ->
  in_turn D rule_fires (told D) l r fired r' ->
  selects (fun od => rule_fires od (mkLogs D res scopes)) l fired /\
  exists tss, Forall2 (fun od ts => exists ts0, listed OTags (rd_opts (snd od)) ts0 /\ NoDup ts /\ (forall t, In t ts <-> In t ts0)) fired tss /\
    (forall rs ts, r = mkLogs D res (scopes ++ [own D rs ts]) -> r' = mkLogs D res (scopes ++ [own D (rs ++ map (fun od => rd_name (snd od)) fired) (ts ++ concat tss)])) /\
    (r = mkLogs D res scopes -> fired = [] /\ r' = r \/ fired <> [] /\ r' = mkLogs D res (scopes ++ [own D (map (fun od => rd_name (snd od)) fired) (concat tss)])).
Proof.
  intros Aw Hl B H. induction H as [r|a l r r1 fired r' Hf Ht H IH|a l r fired r' Hf H IH].
  - split; [constructor|]. exists []. split; [constructor|]. split; [|auto]. intros rs ts ->. cbn. now rewrite !app_nil_r.
  - assert (B1 : base r1 res scopes) by (destruct Ht as (ts0 & ts & _ & _ & _ & N); exact (base_noted _ _ _ _ _ _ B N)).
    destruct (IH (fun x Hx => Hl x (or_intror Hx)) B1) as (S & tss & F & G1 & _).
    split; [constructor; [apply (away_fires dss a r res scopes Aw (Hl a (or_introl eq_refl)) B); assumption|assumption]|].
    destruct Ht as (ts0 & ts & L & Nd & I & N). exists (ts :: tss). split; [constructor; eauto|]. destruct B as [F0 _]. split.
    + intros rs ts1 ->. rewrite (G1 _ _ (noted_own _ _ _ _ _ _ _ F0 N)). cbn [map concat]. rewrite <- !app_assoc. reflexivity.
    + intros ->. right. split; [discriminate|]. rewrite (G1 _ _ (noted_new _ _ _ _ _ F0 N)). reflexivity.
  - destruct (IH (fun x Hx => Hl x (or_intror Hx)) B) as (S & Q). split; [|exact Q]. constructor; [|exact S].
    intros K. apply Hf. apply (away_fires dss a r res scopes Aw (Hl a (or_introl eq_refl)) B). exact K.
Qed.
Lemma away_once dss m res scopes o : looks_away dss -> Forall (foreign D) scopes ->
  o_disposed D parse_float deq dlt dle dss m (mkLogs D res scopes) o -> o_told_once D parse_float deq dlt dle dss m (mkLogs D res scopes) o.
Proof.
  intros Aw F [[H1 H2]|(H1 & fired & r' & T & Q)]; [left; auto|right]. split; [exact H1|].
  destruct (in_turn_away dss _ _ _ _ res scopes Aw (incl_refl _) (conj F (or_introl eq_refl)) T) as (S & tss & F2 & _ & G).
  exists fired. split; [exact S|]. cbn [l_resource l_scopes]. destruct (G eq_refl) as [[E ->]|[E ->]].
  - left. split; [assumption|]. destruct Q as [(-> & _ & ->)|([-> |Q] & ->)]; [reflexivity|reflexivity|contradiction].
  - right. split; [assumption|]. exists tss. split; [assumption|]. destruct Q as [(_ & Q & _)|(_ & ->)]; [contradiction|reflexivity].
Qed.

(** ** Crashes *)
Lemma first_decides k l v : leaf D v -> first_value D k l v -> decides D k l v.
Proof.
  intros L (pre & post & -> & H). induction pre as [|[k1 w1] pre IH]; cbn [List.app]; [now apply D_leaf|].
  apply D_other; [|apply IH; intros w Hw; exact (H w (or_intror Hw))]. intros ->. exact (H w1 (or_introl eq_refl)).
Qed.
Lemma calm_ok K r k : calm D K r -> K k ->
  (forall x op, exists b, o_compare D parse_float deq dlt dle k x op r = Ok b) /\
  (forall ys op, exists b, o_foldany D parse_float deq dlt dle k ys op r = Ok b) /\
  (forall ys op, exists b, o_foldall D parse_float deq dlt dle k ys op r = Ok b) /\
  (exists b, o_exists D k r = Ok b) /\
  (forall find, exists b, o_regexp D find k r = Ok b).
Proof.
  intros [Hr Hc] Hk. destruct (l_resource D r) as [a|] eqn:E; [|congruence].
  assert (Hc' : forall op v, decides D k (attributes D a (l_scopes D r)) v -> ~ crashes D op v).
  { intros op v. specialize (Hc k v op Hk). unfold log_attrs in Hc. rewrite E in Hc. exact Hc. }
  split; [|split; [|split; [|split]]].
  - intros x op. destruct (compare_spec D parse_float deq dlt dle k x op r a E) as (P & _ & [R|R]); [|exact R].
    apply P in R as (v & H1 & H2). destruct (Hc' _ _ H1 H2).
  - intros ys op. destruct (foldany_spec D parse_float deq dlt dle k ys op r a E (Hc' op)) as (b & H1 & _). eauto.
  - intros ys op. destruct (foldall_spec D parse_float deq dlt dle k ys op r a E (Hc' op)) as (b & H1 & _). eauto.
  - destruct (exists_spec D k r a E) as (b & H1 & _). eauto.
  - intros find. destruct (regexp_spec D find k r a E) as (P & _ & [R|R]); [|exact R].
    apply P in R. destruct (Hc' OpEq (ANil D)); [apply first_decides; [exact Logic.I|exact R]|exact Logic.I].
Qed.
Lemma decides_app k l l' v : decides D k (l ++ l') v -> decides D k l v \/ decides D k l' v.
Proof.
  remember (l ++ l') as l0 eqn:E. intros H. revert l E. induction H as [k' w l0 v Hk H IH|l0 v H IH|w l0 Hl|l1 l0 v H IH]; intros l E;
    (destruct l as [|[k0 w0] l]; cbn in E; [right; rewrite <- E; econstructor; eassumption|injection E as E1 E2 E3; subst]).
  - destruct (IH l eq_refl); [left; now apply D_other|now right].
  - destruct (IH l eq_refl); [left; now apply D_unset|now right].
  - left. now apply D_leaf.
  - left. now apply D_nested.
Qed.
Lemma calm_own K res scopes rs ts : rs <> [] -> calm D K (mkLogs D res scopes) -> calm D (fun k => K k /\ (k <> TAGS \/ ts <> [])) (mkLogs D res (scopes ++ [own D rs ts])).
Proof.
  intros Nr [Hr Hc]. split; [exact Hr|]. intros k v op [Hk Ht] H. rewrite own_attrs in H. destruct res as [a|]; [|inversion H].
  apply decides_app in H as [H|H]; [exact (Hc k v op Hk H)|].
  assert (E : v = arr D rs \/ (v = arr D ts /\ k = TAGS)).
  { inversion H as [k' w l1 v1 Hk1 H1|l1 v1 H1|w l1 Hl|l1 l2 v1 H1]; subst; [|now left].
    inversion H1 as [k2 w2 l3 v3 Hk3 H3|l3 v3 H3|w2 l3 Hl3|l3 l4 v3 H3]; subst; [inversion H3|now right]. }
  unfold arr in E. destruct E as [-> |[-> ->]].
  - destruct rs; [congruence|]. cbn. tauto.
  - destruct Ht as [Ht|Ht]; [congruence|]. destruct ts; [congruence|]. cbn. tauto.
Qed.
Lemma calm_in_turn {A} K (fires : A -> logs -> Prop) (tells : A -> logs -> logs -> Prop) l res scopes fired r' :
  (forall a r r1, tells a r r1 -> exists n ts, noted n ts r r1) -> Forall (foreign D) scopes ->
  calm D K (mkLogs D res scopes) -> in_turn D fires tells l (mkLogs D res scopes) fired r' -> calm D (fun k => K k /\ k <> TAGS) r'.
Proof.
  intros Ht F C H.
  assert (G : r' = mkLogs D res scopes \/ exists rs ts, rs <> [] /\ r' = mkLogs D res (scopes ++ [own D rs ts])).
  { assert (I : forall r, in_turn D fires tells l r fired r' ->
      (r = mkLogs D res scopes \/ exists rs ts, rs <> [] /\ r = mkLogs D res (scopes ++ [own D rs ts])) ->
      r' = mkLogs D res scopes \/ exists rs ts, rs <> [] /\ r' = mkLogs D res (scopes ++ [own D rs ts])).
    { clear H C. induction 1 as [r|a l r r1 fired r' Hf Hn H IH|a l r fired r' Hf H IH]; intros Q; auto.
      apply IH. right. destruct (Ht _ _ _ Hn) as (n & ts & N). destruct Q as [-> |(rs & ts0 & Nr & ->)].
      - exists [n], ts. split; [discriminate|]. exact (noted_new _ _ _ _ _ F N).
      - exists (rs ++ [n]), (ts0 ++ ts). split; [destruct rs; discriminate|]. exact (noted_own _ _ _ _ _ _ _ F N). }
    apply (I _ H). now left. }
  destruct G as [-> |(rs & ts & Nr & ->)].
  - destruct C as [C1 C2]. split; [exact C1|]. intros k v op [Hk _]. now apply C2.
  - destruct (calm_own K res scopes rs ts Nr C) as [C1 C2]. split; [exact C1|]. intros k v op [Hk Hn]. apply C2. auto.
Qed.
Lemma untagged_crash n a scopes r1 x : Forall (foreign D) scopes -> (forall v, ~ In (TAGS, v) (attributes D a scopes)) ->
  noted n [] (mkLogs D (Some a) scopes) r1 -> o_compare D parse_float deq dlt dle TAGS x OpStartswith r1 = Panic.
Proof.
  intros F Nt N. rewrite (noted_new _ _ _ _ _ F N).
  apply (proj1 (compare_spec D parse_float deq dlt dle TAGS x OpStartswith (mkLogs D (Some a) (scopes ++ [own D [n] []])) a eq_refl)).
  exists (AArr D (Some [])). split; [|exact Logic.I]. pose proof (own_attrs (Some a) scopes [n] []) as E. unfold log_attrs in E. cbn [l_resource l_scopes] in E |- *. rewrite E.
  revert Nt. generalize (attributes D a scopes). intros l Nt. induction l as [|[k w] l IH]; cbn [List.app].
  - apply D_other; [discriminate|]. apply D_leaf. exact Logic.I.
  - apply D_other; [|apply IH; intros v Hv; exact (Nt v (or_intror Hv))]. intros ->. exact (Nt w (or_introl eq_refl)).
Qed.
End O.
