(** * InitFacts: start-up of the policy engine. *)
From Coq Require Import Lia Permutation.
From Verif Require Import GoBase GoFacts Predicates FlatRecord FalcoModel SpecFalco FalcoFacts FalcoFacts2 SpecFlat SigmaModel LexerModel SpecLexer TextFacts
  EngineModel EngineFlat SpecEngine EngineFacts SpecEngineFlat EngineFacts2 PoolModel SpecPool PoolFacts4 MonitorModel InitModel SpecInit.

Lemma given_fun conf k a b : given conf k a -> given conf k b -> a = b.
Proof. unfold given. congruence. Qed.
Lemma text_option_fun conf k d a b : text_option conf k d a -> text_option conf k d b -> a = b.
Proof.
  intros [H|[H E]] [H'|[H' E']]; subst; auto.
  - exact (given_fun _ _ _ _ H H').
  - now destruct (H' a).
  - now destruct (H b).
Qed.
Definition functional {A} (tbl : list (string * A)) : Prop := forall w a b, In (w, a) tbl -> In (w, b) tbl -> a = b.
Lemma word_option_fun {A} conf k (tbl : list (string * A)) o d a b : functional tbl ->
  word_option conf k tbl o d a -> word_option conf k tbl o d b -> a = b.
Proof.
  intros F [(w & G & H)|[G H]] [(w' & G' & H')|[G' H']]; subst; auto.
  - rewrite (given_fun _ _ _ _ G' G) in *. clear w' G'.
    destruct H as [H|[H E]], H' as [H'|[H' E']]; subst; auto; [exact (F _ _ _ H H')|destruct (H' _ H)|destruct (H _ H')].
  - now destruct (G' w).
  - now destruct (G w').
Qed.
Lemma mode_fun : functional [("enrich", EnrichMode); ("alert", AlertMode)].
Proof. intros w a b. cbn. intuition congruence. Qed.
Lemma language_fun : functional [("falco", Falco); ("sigma", Sigma)].
Proof. intros w a b. cbn. intuition congruence. Qed.
Lemma monitor_fun : functional [("none", NoneType); ("local", LocalType)].
Proof. intros w a b. cbn. intuition congruence. Qed.

Section I.
Context {R : Type}.
Variable ops : operations R.
Variable pmatch : string -> string -> bool.
Variable ord : srule -> list nat -> list (string * search).
Variable fuel : nat.
Notation init := (init ops pmatch ord fuel).
Notation create_interpreter := (create_interpreter ops pmatch ord fuel).
Notation compiles := (compiles ops pmatch ord fuel).

Lemma conf_parts conf : let c := fst (create_config conf) in
  text_option conf "policies" "" (c_policies c) /\ text_option conf "config" "" (c_config c) /\
  language_is conf (c_language c) /\ mode_is conf (c_mode c) /\ monitor_is conf (c_monitor c).
Proof. pose proof (create_config_spec conf) as H. cbn zeta in *. unfold language_is, mode_is, monitor_is. tauto. Qed.

Lemma no_policies_empty conf : no_policies conf -> c_policies (fst (create_config conf)) = "".
Proof. intros H. destruct (conf_parts conf) as [[G|[_ G]] _]; [exact (H _ G)|exact G]. Qed.
Lemma policies_in_dir conf d : policies_in conf d -> c_policies (fst (create_config conf)) = d /\ seqb d "" = false.
Proof.
  intros [H N]. split; [|now apply seqb_neq].
  destruct (conf_parts conf) as [[G|[G _]] _]; [exact (given_fun _ _ _ _ G H)|destruct (G _ H)].
Qed.
Lemma mode_eq conf m : mode_is conf m -> c_mode (fst (create_config conf)) = m.
Proof. intros H. destruct (conf_parts conf) as (_ & _ & _ & G & _). exact (word_option_fun _ _ _ _ _ _ _ mode_fun G H). Qed.
Lemma language_eq conf m : language_is conf m -> c_language (fst (create_config conf)) = m.
Proof. intros H. destruct (conf_parts conf) as (_ & _ & G & _). exact (word_option_fun _ _ _ _ _ _ _ language_fun G H). Qed.
Lemma monitor_eq conf m : monitor_is conf m -> c_monitor (fst (create_config conf)) = m.
Proof. intros H. destruct (conf_parts conf) as (_ & _ & _ & _ & G). exact (word_option_fun _ _ _ _ _ _ _ monitor_fun G H). Qed.
Lemma config_eq conf v : text_option conf "config" "" v -> c_config (fst (create_config conf)) = v.
Proof. intros H. destruct (conf_parts conf) as (_ & G & _). exact (text_option_fun _ _ _ _ _ G H). Qed.

Lemma init_no_policies h conf : no_policies conf ->
  (mode_is conf EnrichMode -> init h conf = Ok (Some (mkReady (fst (create_config conf)) None None))) /\
  (mode_is conf AlertMode -> init h conf = Ok None).
Proof.
  intros H. unfold InitModel.init. rewrite (no_policies_empty _ H).
  change (seqb "" "") with true. cbn iota.
  split; intros Hm; now rewrite (mode_eq _ _ Hm).
Qed.

(** createPolicyInterpreter *)
Lemma create_iff h conf d p : policies_in conf d ->
  create_interpreter h (fst (create_config conf)) = Ok (Some p) <->
  exists rules, compiles h conf d rules (fst p) /\
    snd p = bench_rules (h_perf h) (c_benchindex (fst (create_config conf))) (c_benchsize (fst (create_config conf))) rules.
Proof.
  intros Hd. destruct (policies_in_dir _ _ Hd) as [E _]. unfold InitModel.create_interpreter. rewrite E.
  destruct (conf_parts conf) as (_ & Hcfg & Hl & _).
  split.
  - destruct (h_recursive h d) as [[|x paths]|] eqn:Hr; try discriminate.
    unfold compile_policies. destruct (c_language (fst (create_config conf))) eqn:L.
    + destruct (compile ops fuel (map (h_falco h) (x :: paths))) as [[[rules filters]|]| | |] eqn:Hc; cbn; try discriminate.
      intros H. injection H as <-. cbn. exists rules. split; [|reflexivity].
      eapply cp_falco; [exact Hl|exact Hr|discriminate|exact Hc].
    + destruct (read_rules (map (h_sigma h) (x :: paths))) eqn:Hrr; [|discriminate].
      destruct (h_sigconf h (c_config (fst (create_config conf)))) as [maps|] eqn:Hs; [|discriminate].
      destruct (s_compile ops maps pmatch ord (map (h_sigma h) (x :: paths))) as [[rules|]| | |] eqn:Hc; cbn [rbind option_map]; try discriminate.
      intros H. injection H as <-. cbn. exists rules. split; [|reflexivity].
      eapply cp_sigma; [exact Hl|exact Hr|discriminate|exact Hcfg|exact Hs|exact Hc|reflexivity].
  - intros (rules & [paths Hl' Hr N Hc | paths cfg maps Hl' Hr N Hcfg' Hs Hc Hf] & E2); rewrite Hr; destruct paths as [|x paths]; try congruence;
      unfold compile_policies; rewrite (language_eq _ _ Hl').
    + rewrite Hc. cbn. rewrite <- E2. now destruct p.
    + rewrite (config_eq _ _ Hcfg').
      destruct (read_rules (map (h_sigma h) (x :: paths))) eqn:Hrr.
      2:{ unfold s_compile in Hc. rewrite Hrr in Hc. discriminate. }
      rewrite Hs, Hc. cbn [rbind option_map fst snd]. rewrite <- E2, <- Hf. now destruct p.
Qed.

(** What Init returns when it starts with policies. *)
Lemma init_iff h conf d rd : policies_in conf d ->
  init h conf = Ok (Some rd) <->
  exists p, create_interpreter h (fst (create_config conf)) = Ok (Some p) /\
    (0 <= c_concurrency (fst (create_config conf)) < 2147483648)%Z /\
    (monitor_is conf NoneType /\ rd = mkReady (fst (create_config conf)) (Some p) None \/
     monitor_is conf LocalType /\ watchable h d /\ rd = mkReady (fst (create_config conf)) (Some p) (Some (mkM [] []))).
Proof.
  intros Hd. destruct (policies_in_dir _ _ Hd) as [E N]. unfold InitModel.init. rewrite E, N.
  destruct (conf_parts conf) as (_ & _ & _ & _ & Hm). set (c := fst (create_config conf)) in *.
  assert (SO : forall A (a b : A), start_ok c a = Ok b <-> (0 <= c_concurrency c < 2147483648)%Z /\ a = b).
  { intros A a b. unfold start_ok, max_workers. destruct (Z.ltb_spec (c_concurrency c) 0) as [L|L]; [split; [discriminate|intros [H' _]; lia]|].
    destruct (Z.ltb_spec 2147483647 (c_concurrency c)) as [L'|L']; cbn [orb].
    - split; [discriminate|intros [H' _]; lia].
    - split; [intros H'; injection H' as <-; split; [lia|reflexivity]|intros [_ <-]; reflexivity]. }
  split.
  - destruct (c_monitor c) eqn:Mo.
    + destruct (create_interpreter h c) as [[p|]| | |] eqn:C; cbn; try discriminate.
      intros H. apply SO in H as [H1 H2]. injection H2 as <-. exists p. split; [reflexivity|]. split; [assumption|]. left. auto.
    + destruct (h_watcher h) eqn:W; [|discriminate].
      destruct (h_flat h d) as [[|x l]|] eqn:F; try discriminate.
      destruct (create_interpreter h c) as [[p|]| | |] eqn:C; cbn; try discriminate.
      intros H. apply SO in H as [H1 H2]. injection H2 as <-. exists p. split; [reflexivity|]. split; [assumption|]. right.
      split; [assumption|]. split; [|reflexivity]. split; [assumption|]. exists (x :: l). split; [assumption|discriminate].
  - intros (p & C & Hc & [[Mo ->]|(Mo & (W & paths & F & Nn) & ->)]); pose proof (monitor_eq _ _ Mo) as Qm; fold c in Qm; rewrite Qm.
    + rewrite C. cbn. apply SO. auto.
    + rewrite W, F. destruct paths as [|x l]; [congruence|]. rewrite C. cbn. apply SO. auto.
Qed.

Lemma init_accepts h conf d : policies_in conf d ->
  (exists rd, init h conf = Ok (Some rd)) <->
  ((exists rules filters, compiles h conf d rules filters) /\ (0 <= c_concurrency (fst (create_config conf)) < 2147483648)%Z /\
   (monitor_is conf LocalType -> watchable h d)).
Proof.
  intros Hd. split.
  - intros (rd & H). apply (init_iff h conf d rd Hd) in H as (p & C & Hc & Hm). apply (create_iff h conf d p Hd) in C as (rules & C & _).
    split; [eauto|]. split; [assumption|]. intros Ml. destruct Hm as [[M _]|(_ & W & _)]; [|assumption].
    pose proof (word_option_fun _ _ _ _ _ _ _ monitor_fun M Ml). discriminate.
  - intros ((rules & filters & C) & Hc & Hw).
    assert (Cr : create_interpreter h (fst (create_config conf)) = Ok (Some (filters, bench_rules (h_perf h) (c_benchindex (fst (create_config conf))) (c_benchsize (fst (create_config conf))) rules))).
    { apply (create_iff h conf d _ Hd). exists rules. auto. }
    destruct (conf_parts conf) as (_ & _ & _ & _ & Hm).
    destruct (c_monitor (fst (create_config conf))) eqn:Mo.
    + eexists. apply (init_iff h conf d _ Hd). eexists. split; [exact Cr|]. split; [assumption|]. left. split; [assumption|reflexivity].
    + eexists. apply (init_iff h conf d _ Hd). eexists. split; [exact Cr|]. split; [assumption|]. right. split; [assumption|]. split; [auto|reflexivity].
Qed.
(** The rules and filters in force after start-up. *)
Lemma init_policies h conf d rd : policies_in conf d -> h_perf h = false -> init h conf = Ok (Some rd) ->
  exists rules filters, compiles h conf d rules filters /\ rd_pi rd = Some (filters, rules) /\
    (monitor_is conf NoneType -> rd_mon rd = None) /\ (monitor_is conf LocalType -> rd_mon rd = Some (mkM [] [])).
Proof.
  intros Hd Hp H. apply (init_iff h conf d rd Hd) in H as (p & C & Hc & Hm). apply (create_iff h conf d p Hd) in C as (rules & C & E).
  rewrite Hp in E. unfold bench_rules in E. exists rules, (fst p). split; [assumption|]. rewrite <- E.
  assert (X : monitor_is conf NoneType -> monitor_is conf LocalType -> False).
  { intros A B. pose proof (word_option_fun _ _ _ _ _ _ _ monitor_fun A B). discriminate. }
  destruct Hm as [[M ->]|(M & _ & ->)]; cbn; rewrite <- surjective_pairing; (split; [reflexivity|]); split; auto; intros; exfalso; eauto.
Qed.
Lemma init_in_force h conf d rd : policies_in conf d -> h_perf h = false -> init h conf = Ok (Some rd) ->
  exists rules filters, compiles h conf d rules filters /\
    (monitor_is conf NoneType -> pool_start rd = init_static (Z.to_nat (c_concurrency (fst (create_config conf)))) (filters, rules)) /\
    (monitor_is conf LocalType -> pool_start rd = init_monitor (Z.to_nat (c_concurrency (fst (create_config conf)))) (filters, rules) []).
Proof.
  intros Hd Hp H. destruct (init_policies h conf d rd Hd Hp H) as (rules & filters & C & E1 & E2 & E3).
  exists rules, filters. split; [assumption|].
  apply (init_iff h conf d rd Hd) in H as (p & _ & _ & Hm).
  assert (Ec : rd_conf rd = fst (create_config conf)) by (destruct Hm as [[_ ->]|(_ & _ & ->)]; reflexivity).
  unfold pool_start. rewrite E1, Ec. split; intros Hn; [rewrite (E2 Hn)|rewrite (E3 Hn)]; reflexivity.
Qed.
Lemma init_yml h conf conf' d dr rules filters :
  policies_in conf d -> policies_in conf' d -> monitor_is conf NoneType -> monitor_is conf' LocalType ->
  (0 <= c_concurrency (fst (create_config conf)) < 2147483648)%Z ->
  h_recursive h d = Some (list_recursive dr [".yaml"; ".yml"]) -> h_flat h d = Some (list_file_paths dr ".yaml") ->
  (forall f s, In (f, s) dr -> nested f = true \/ has_suffix f ".yaml" = false) ->
  compiles h conf d rules filters ->
  (exists rd, init h conf = Ok (Some rd)) /\ forall rd, init h conf' <> Ok (Some rd).
Proof.
  intros Hd Hd' M1 M2 Hc _ Hfl Hn C. split.
  - apply (init_accepts h conf d Hd). split; [eauto|]. split; [assumption|]. intros Ml.
    pose proof (word_option_fun _ _ _ _ _ _ _ monitor_fun M1 Ml). discriminate.
  - intros rd H. assert (E : exists rd, init h conf' = Ok (Some rd)) by eauto.
    apply (init_accepts h conf' d Hd') in E as (_ & _ & W). destruct (W M2) as (_ & paths & F & N). rewrite Hfl in F. injection F as <-.
    apply N. unfold list_file_paths. clear - Hn. induction dr as [|[f s] dr IH]; [reflexivity|]. cbn.
    destruct (Hn f s (or_introl eq_refl)) as [E|E]; rewrite E; cbn; rewrite ?andb_false_r; apply IH; intros f' s' Hi; apply (Hn f' s'); now right.
Qed.
Lemma init_negative h conf d p : policies_in conf d -> ~ (0 <= c_concurrency (fst (create_config conf)) < 2147483648)%Z ->
  create_interpreter h (fst (create_config conf)) = Ok (Some p) -> (monitor_is conf LocalType -> watchable h d) ->
  init h conf = Panic.
Proof.
  intros Hd Hn C Hw. destruct (policies_in_dir _ _ Hd) as [E N]. unfold InitModel.init. rewrite E, N.
  destruct (conf_parts conf) as (_ & _ & _ & _ & Hm). set (c := fst (create_config conf)) in *.
  assert (SO : forall A (a : A), start_ok c a = Panic) by (intros A a; unfold start_ok, max_workers; destruct (Z.ltb_spec (c_concurrency c) 0), (Z.ltb_spec 2147483647 (c_concurrency c)); (reflexivity || lia)).
  destruct (c_monitor c) eqn:Mo.
  - rewrite C. cbn. apply SO.
  - destruct (Hw Hm) as (W & paths & F & Nn). rewrite W, F. destruct paths; [congruence|]. rewrite C. cbn. apply SO.
Qed.
End I.

(** The rules selected for benchmarking. *)
Lemma bench_spec {R} perf idx size (rules : list (rule R)) :
  let n := Z.of_nat (length rules) in
  (perf = false -> bench_rules perf idx size rules = rules) /\
  (perf = true -> (0 <= idx < n)%Z -> exists a ru b, rules = a ++ ru :: b /\ Z.of_nat (length a) = idx /\ bench_rules perf idx size rules = [ru]) /\
  (perf = true -> ~ (0 <= idx < n)%Z -> (0 <= size <= n)%Z ->
     exists b, rules = bench_rules perf idx size rules ++ b /\ Z.of_nat (length (bench_rules perf idx size rules)) = size) /\
  (perf = true -> ~ (0 <= idx < n)%Z -> ~ (0 <= size <= n)%Z -> bench_rules perf idx size rules = rules).
Proof.
  cbn zeta. unfold bench_rules.
  repeat apply conj; intros ->; auto; intros H.
  - assert (E : ((0 <=? idx)%Z && (idx <? Z.of_nat (length rules))%Z)%bool = true) by (apply andb_true_intro; split; [apply Z.leb_le|apply Z.ltb_lt]; lia).
    rewrite E. destruct (nth_error rules (Z.to_nat idx)) as [ru|] eqn:N.
    + apply nth_error_split in N as (a & b & -> & L). exists a, ru, b. repeat split; auto. lia.
    + apply nth_error_None in N. lia.
  - intros H2.
    assert (E : ((0 <=? idx)%Z && (idx <? Z.of_nat (length rules))%Z)%bool = false).
    { destruct (Z.leb_spec 0 idx); destruct (Z.ltb_spec idx (Z.of_nat (length rules))); cbn; auto. lia. }
    rewrite E.
    assert (E2 : ((0 <=? size)%Z && (size <=? Z.of_nat (length rules))%Z)%bool = true) by (apply andb_true_intro; split; apply Z.leb_le; lia).
    rewrite E2. exists (skipn (Z.to_nat size) rules). split; [symmetry; apply firstn_skipn|]. rewrite firstn_length. lia.
  - intros H2.
    assert (E : ((0 <=? idx)%Z && (idx <? Z.of_nat (length rules))%Z)%bool = false).
    { destruct (Z.leb_spec 0 idx); destruct (Z.ltb_spec idx (Z.of_nat (length rules))); cbn; auto. lia. }
    assert (E2 : ((0 <=? size)%Z && (size <=? Z.of_nat (length rules))%Z)%bool = false).
    { destruct (Z.leb_spec 0 size); destruct (Z.leb_spec size (Z.of_nat (length rules))); cbn; auto. lia. }
    now rewrite E, E2.
Qed.

(** ** From policy texts to what leaves the plugin *)
Section E.
Variable X : sfgo_fns.
Variable M : gomap fieldmap.
Variable typ : flatrec -> string.
Hypothesis Htyp : map_str X M "sf.type" = Ok typ.

Lemma compiled_good (ops : operations sfrec) n fs x : compile ops n fs = Ok (Some x) -> Forall file_good fs.
Proof.
  intros Hc. destruct (@compile_files_err sfrec ops n fs _ _ Hc) as [_ H2].
  assert (D : forall g : file, file_good g \/ ~ file_good g).
  { intros [[ds [|]]|]; [right|left|right]; try (intros (z & E); discriminate E). now exists ds. }
  assert (DD : Forall file_good fs \/ ~ Forall file_good fs).
  { clear - D. induction fs as [|g fs [IH|IH]]; [left; constructor| |right; intros H; inversion H; auto].
    destruct (D g); [left; constructor; auto|right; intros H'; inversion H'; auto]. }
  destruct DD as [DD|DD]; [assumption|]. specialize (H2 DD). discriminate.
Qed.

Lemma in_rule_occs o d os : In (o, d) (rule_occs os) -> In o os /\ oc_decl o = DRule d.
Proof.
  induction os as [|x os IH]; [intros []|]. cbn. destruct (oc_decl x) eqn:E; try (intros H; destruct (IH H); auto).
  intros [H|H]; [injection H as -> ->; auto|destruct (IH H); auto].
Qed.
Lemma in_occs o e fs : In o (occs e fs) -> exists f, In f fs /\ In (oc_decl o) (file_decls f).
Proof.
  revert e. induction fs as [|f fs IH]; intros e; [intros []|]. cbn. intros H. apply in_app_iff in H as [H|H].
  - exists f. split; [auto|].
    assert (G : forall ea pre wh ds, In o (occs_in ea pre wh ds) -> In (oc_decl o) ds).
    { intros ea pre wh ds. revert pre. induction ds as [|d ds IHd]; intros pre; [intros []|]. cbn. intros [<-|Q]; [left; reflexivity|right; eauto]. }
    exact (G _ _ _ _ H).
  - destruct (IH _ H) as (g & H1 & H2). eauto.
Qed.
Lemma texts_files texts dss : Forall2 text_reads texts dss -> (forall t, In t texts -> ok_text t) ->
  files_plain (map (fun ds => Some (ds, false)) dss) /\
  (forall o d it, In (o, d) (rule_occs (declared dss)) -> In (OPrefilter it) (rd_opts d) -> clean_items it).
Proof.
  intros F Hok.
  assert (G : forall ds d, In ds dss -> In d ds -> decl_plain d = true /\
    (forall rd it, d = DRule rd -> In (OPrefilter it) (rd_opts rd) -> clean_items it)).
  { clear - F Hok. induction F as [|t ds0 texts dss Ht F IH]; intros ds d Hi Hd; [destruct Hi|].
    destruct Hi as [->|Hi]; [exact (Hok t (or_introl eq_refl) ds d Ht Hd)|].
    apply (IH (fun t' H => Hok t' (or_intror H)) ds d Hi Hd). }
  split.
  - intros f d Hf Hd. apply in_map_iff in Hf as (ds & <- & Hds). exact (proj1 (G ds d Hds Hd)).
  - intros o d it Ho Hi. apply in_rule_occs in Ho as [Ho Ed]. apply in_occs in Ho as (f & Hf & Hd).
    apply in_map_iff in Hf as (ds & <- & Hds). cbn in Hd. exact (proj2 (G ds _ Hds Hd) d it Ed Hi).
Qed.
Lemma work_disposed n dss rules filters ah m r :
  files_plain (map (fun ds => Some (ds, false)) dss) ->
  (forall o d it, In (o, d) (rule_occs (declared dss)) -> In (OPrefilter it) (rd_opts d) -> clean_items it) ->
  compile (sf_ops X M) n (map (fun ds => Some (ds, false)) dss) = Ok (Some (rules, filters)) -> benign ah ->
  disposed X M typ dss m r (outs (snd (sf_work X M ah m filters rules r))).
Proof.
  intros Hp Hcl Hc Hb. destruct r as [fr ctx].
  pose proof (falco_end_to_end X M typ Htyp n _ rules filters ah m fr ctx Hp Hc Hb Hcl) as H.
  destruct (compile_ok (sf_ops X M) n _ rules filters Hp Hc) as (_ & _ & F2).
  assert (Dec : (exists od, In od (filter_occs (declared dss)) /\ filter_fires X M fr od) \/
                (forall od, In od (filter_occs (declared dss)) -> ~ filter_fires X M fr od)).
  { fold (declared dss) in F2. clear - F2 ctx fr. induction F2 as [|od f ods fl Hf F IH]; [right; intros od []|].
    destruct IH as [(od' & I1 & I2)|IH]; [left; exists od'; split; [right|]; auto|].
    destruct (f_enabled f && c_eval (f_cond f) (fr, ctx))%bool eqn:E.
    - apply andb_true_iff in E as [E1 E2]. left. exists od. split; [left; auto|]. apply (filter_decl X M od f Hf (fr, ctx)). auto.
    - right. intros od' [<-|Hi]; [|auto]. intros Q. apply (filter_decl X M od f Hf (fr, ctx)) in Q as [E1 E2].
      unfold c_eval in E. rewrite E1, E2 in E. discriminate. }
  destruct (sf_work X M ah m filters rules (fr, ctx)) as [r' es]. cbn [snd]. destruct H as [H1 H2].
  destruct Dec as [D|D].
  - left. split; [assumption|]. destruct (H1 D) as [_ ->]. reflexivity.
  - right. split; [intros (od & Q1 & Q2); exact (D od Q1 Q2)|].
    destruct (H2 D) as (fired & S & E1 & (new & E2 & Mk) & E3 & E4). exists fired, new. split; [assumption|]. split; [assumption|].
    destruct fired as [|a fired].
    + destruct m; [right|left].
      * split; [auto|]. exists r'. rewrite E3 by auto. auto.
      * destruct (E4 eq_refl eq_refl) as [-> _]. auto.
    + right. split; [right; discriminate|]. exists r'. rewrite E3 by (right; discriminate). auto.
Qed.
Lemma interpreter_texts pmatch ord n h conf d ah m p :
  policies_in conf d -> language_is conf Falco -> benign ah -> faithful h d ->
  create_interpreter (sf_ops X M) pmatch ord n h (fst (create_config conf)) = Ok (Some p) ->
  exists texts dss, texts_of h d texts /\ Forall2 text_reads texts dss /\
    forall r, disposed X M typ dss m r (outs (snd (sf_work X M ah m (fst p) (snd p) r))).
Proof.
  intros Hd Hl Hb [Hperf Htx] Hc.
  apply (create_iff _ _ _ _ h conf d p Hd) in Hc as (rules & C & Er).
  rewrite Hperf in Er. unfold bench_rules in Er. rewrite Er.
  destruct C as [paths _ Hr Nn Hc|? ? ? Hl' _ _ _ _ _ _].
  2:{ pose proof (word_option_fun _ _ _ _ _ _ _ language_fun Hl Hl'). discriminate. }
  assert (P : Forall2 parsed (map (h_text h) paths) (map (h_falco h) paths)).
  { specialize (fun q => Htx paths q Hr). clear - Htx. induction paths as [|q paths IH]; cbn; constructor; [apply Htx; now left|].
    apply IH. intros q' Hq. apply Htx. now right. }
  destruct (parsed_good _ _ P (compiled_good _ _ _ _ Hc)) as (dss & F & Efs).
  exists (map (h_text h) paths), dss. split; [exists paths; auto|]. split; [assumption|].
  assert (Hok : forall t, In t (map (h_text h) paths) -> ok_text t).
  { intros t Ht. apply in_map_iff in Ht as (q & <- & Hq). exact (proj2 (Htx paths q Hr Hq)). }
  destruct (texts_files _ _ F Hok) as [Hpl Hcl]. rewrite Efs in Hc.
  intros r. exact (work_disposed n dss rules (fst p) ah m r Hpl Hcl Hc Hb).
Qed.
Lemma plugin_end_to_end pmatch ord n h conf d ah m outCh rd cs s tr :
  policies_in conf d -> language_is conf Falco -> monitor_is conf NoneType -> mode_is conf m ->
  benign ah -> faithful h d -> NoDup outCh ->
  init (sf_ops X M) pmatch ord n h conf = Ok (Some rd) ->
  run (engine_proc (sf_applicable X M) sf_add ah m) (Z.to_nat (c_concurrency (rd_conf rd))) outCh (pool_start rd) cs = (s, tr) ->
  finished s ->
  exists texts dss, texts_of h d texts /\ Forall2 text_reads texts dss /\
  forall c, In c outCh ->
  exists os, Forall2 (disposed X M typ dss m) (taken tr) os /\ Permutation (emitted c tr) (concat os).
Proof.
  intros Hd Hl Hmon Hm Hb Hf ND Hi Hrun Hfin.
  apply (init_iff _ _ _ _ h conf d rd Hd) in Hi as (p & C & _ & [[_ ->]|(Ml & _ & _)]).
  2:{ pose proof (word_option_fun _ _ _ _ _ _ _ monitor_fun Hmon Ml). discriminate. }
  destruct (interpreter_texts _ _ _ _ _ _ _ m _ Hd Hl Hb Hf C) as (texts & dss & T & F & D).
  exists texts, dss. split; [assumption|]. split; [assumption|]. intros c Hch.
  destruct p as [filters rules]. cbn [pool_start rd_pi rd_mon rd_conf fst snd] in *.
  pose proof (pool_engine _ _ _ _ _ outCh ND filters rules cs s tr Hrun Hfin c Hch) as Q.
  exists (map (fun r => outs (snd (sf_work X M ah m filters rules r))) (taken tr)). split.
  - generalize (taken tr). intros l. induction l as [|r l IH]; cbn; constructor; [apply D|assumption].
  - rewrite <- flat_map_concat_map. exact Q.
Qed.
End E.
