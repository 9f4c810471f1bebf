(** * TuneFacts: what a complete run exports depends on the input and the policies only. *)
From Coq Require Import Lia Permutation.
From Verif Require ReaderModel SpecReader ReaderFacts2 DriverModel SpecDriver ExportFacts FlattenFacts2 JsonFlat.
From Verif Require Import GoBase GoFacts PermTac Predicates FlatRecord SigmaModel EngineModel EngineFlat SpecEngine EngineFacts SpecEngineFlat PoolModel SpecPool PoolFacts PoolFacts2 PoolFacts3 PoolFacts4 MonitorModel
  SpecMonitor InitModel SpecInit InitFacts LiveFacts FlattenModel SpecFlatten ExportModel SpecExport AppModel SpecApp AppFacts ChainModel SpecChain ChainFacts SpecRest RestFacts ChainRest
  RerunModel RerunFacts SpecTune.
Local Open Scope nat_scope.

(** ** Configurations *)
Lemma tuned_conf conf conf' : tuned conf conf' -> let c := fst (create_config conf) in let c' := fst (create_config conf') in
  c_policies c = c_policies c' /\ c_config c = c_config c' /\ c_language c = c_language c' /\ c_mode c = c_mode c' /\ c_monitor c = c_monitor c' /\
  c_benchsize c = c_benchsize c' /\ c_benchindex c = c_benchindex c'.
Proof.
  intros T. assert (C : forall k, k <> "concurrency" -> k <> "monitor.interval" -> cstr k conf = cstr k conf') by (intros k A B; unfold cstr; now rewrite (T k A B)).
  unfold create_config.
  rewrite (C "policies"), (C "config"), (C "language"), (C "mode"), (C "monitor"), (C "bench.rulesetsize"), (C "bench.ruleindex"), (C "version"), (C "jsonschemaversion"), (C "buildnumber"), (C "actiondir") by discriminate.
  destruct (cstr "monitor.interval" conf) as [v|]; [destruct (atoi v)|]; destruct (cstr "monitor.interval" conf') as [v'|]; try destruct (atoi v');
  destruct (cstr "concurrency" conf) as [w|]; try destruct (atoi w); destruct (cstr "concurrency" conf') as [w'|]; try destruct (atoi w');
  destruct (cstr "bench.rulesetsize" conf') as [u|]; try destruct (atoi u); destruct (cstr "bench.ruleindex" conf') as [y|]; try destruct (atoi y); cbn; repeat split; reflexivity.
Qed.

(** ** One worker *)
Section Pool.
Context {R : Type}.
Variable applicable : R -> rule R -> bool.
Variable add_rule : R -> rule R -> R.
Variable ah : ahandler R.
Variable m : mode.
Notation engine_proc := (engine_proc applicable add_rule ah m).
Lemma static_accepted conc outCh p0 cs s tr : NoDup outCh -> run engine_proc conc outCh (init_static conc p0) cs = (s, tr) -> finished s ->
  accepted p0 tr = map (pair p0) (taken tr).
Proof.
  intros ND Hr Hfin.
  assert (Hs : starts conc p0 [] (init_static conc p0 : st _ R)) by (right; auto).
  assert (Hq : published tr = []).
  { apply run_reach in Hr. clear -Hr.
    assert (G : s_monq s = None /\ published tr = []); [|tauto].
    induction Hr as [|s tr ch s' l H IH Hf]; [cbn; auto|]. destruct IH as [I1 I2]. rewrite published_app, I2. cbn [app].
    unfold fire in Hf. destruct (s_panic s); [discriminate|]. destruct ch as [i|b| |g w|p].
    - unfold fire_main in Hf. destruct (s_main s) as [|r|r p|r p|r|r [|k ks]| | | |[|k ks]|]; try discriminate. destruct i; injection Hf as <- <-; auto.
    - unfold fire_main in Hf. destruct (s_main s) as [|r|r p|r p|r|r [|k ks]| | | |[|k ks]|]; try discriminate. rewrite I1 in Hf. destruct (s_pi s); injection Hf as <- <-; auto.
    - unfold fire_main, send_out, crash in Hf. destruct (s_main s) as [|r|r p|r p|r|r [|k ks]| | | |[|k ks]|]; try discriminate.
      all: repeat match type of Hf with
        | (match ?x with _ => _ end) = _ => destruct x; try discriminate
        | Some (if ?x then _ else _) = _ => destruct x
        end; injection Hf as <- <-; auto.
    - unfold fire_worker, send_out, crash in Hf.
      repeat match type of Hf with
        | (match ?x with _ => _ end) = _ => destruct x; try discriminate
        | Some (if ?x then _ else _) = _ => destruct x
        end; injection Hf as <- <-; auto.
    - rewrite I1 in Hf. discriminate. }
  pose proof (inv_reach _ _ _ _ _ _ _ _ ND Hs (run_reach _ _ _ _ _ _ _ Hr)) as I. pose proof (iv_pub _ _ _ _ _ _ _ I) as B.
  rewrite Hq in B. cbn in B. symmetry in B. apply app_eq_nil in B as [B _].
  pose proof (iv_taken _ _ _ _ _ _ _ I) as T. rewrite Hfin in T. cbn in T. rewrite app_nil_r in T. rewrite T. exact (accepted_static _ _ B).
Qed.
Lemma pool_engine_one outCh : NoDup outCh -> forall filters rules cs s tr,
  run engine_proc 1 outCh (init_static 1 (filters, rules)) cs = (s, tr) -> finished s ->
  forall c, In c outCh -> emitted c tr = flat_map (fun r => outs (snd (work applicable add_rule ah m filters rules r))) (taken tr).
Proof.
  intros ND filters rules cs s tr Hr Hfin c Hc.
  pose proof (pool_engine applicable add_rule ah m 1 outCh ND filters rules cs s tr Hr Hfin c Hc) as Pm.
  assert (Hs : starts 1 (filters, rules) [] (init_static 1 (filters, rules) : st _ R)) by (right; auto).
  destruct (pool_order _ _ _ ND eq_refl _ _ _ _ _ _ Hs Hr) as [(rest & A) B]. destruct (B c Hc) as (rest' & B').
  rewrite (static_accepted _ _ _ _ _ _ ND Hr Hfin) in A.
  assert (E : flat_map (fun r => outs (snd (work applicable add_rule ah m filters rules r))) (taken tr) = emitted c tr ++ rest' ++ due engine_proc rest).
  { rewrite app_assoc, <- B'. unfold due at 1 2. rewrite <- flat_map_app, <- A. fold (due engine_proc (map (pair (filters, rules)) (taken tr))). rewrite due_engine.
    generalize (taken tr). intros l. induction l as [|r l IH]; [reflexivity|]. cbn [map flat_map fst snd]. f_equal. exact IH. }
  pose proof (Permutation_length Pm) as L. rewrite E, !app_length in L. rewrite E.
  destruct rest'; [|cbn in L; lia]. destruct (due engine_proc rest); [|cbn in L; lia]. now rewrite !app_nil_r.
Qed.
End Pool.

Section W.
Variables (X : sfgo_fns) (M : gomap fieldmap) (ah : ahandler sfrec).
(** The engine passes on records with the data they came with. *)
Lemma work_data m fs rl r r' : benign ah -> In r' (outs (snd (work (sf_applicable X M) sf_add ah m fs rl r))) -> fst r' = fst r.
Proof.
  intros Hb. unfold work. destruct (eval_filters fs r); [intros []|].
  assert (A : forall names r0, fst (fst (run_actions ah names r0)) = fst r0).
  { induction names as [|a names IH]; intros r0; cbn [run_actions]; [reflexivity|]. destruct (find_action ah a) as [f|] eqn:F; [|apply IH].
    pose proof (proj1 (Hb a f r0 F)) as E. destruct (f r0) as [r1 e]. cbn [fst] in E. specialize (IH r1). destruct (run_actions ah names r1) as [r2 es]. cbn [fst] in *. congruence. }
  assert (Q : forall b r0, fst (fst (fst (apply_rules (sf_applicable X M) sf_add ah rl r0 b))) = fst r0).
  { induction rl as [|ru rl IH]; intros b r0; cbn [apply_rules]; [reflexivity|].
    destruct (r_enabled ru && sf_applicable X M r0 ru && c_eval (r_cond ru) r0); [|apply IH].
    unfold handle_actions. specialize (A (r_actions ru) (sf_add r0 ru)). destruct (run_actions ah (r_actions ru) (sf_add r0 ru)) as [r2 es].
    specialize (IH true r2). destruct (apply_rules (sf_applicable X M) sf_add ah rl r2 true) as [[r3 mt] es']. cbn [fst] in *. rewrite IH, A. reflexivity. }
  set (b := match m with EnrichMode => true | AlertMode => false end). specialize (Q b r).
  pose proof (apply_rules_outs (sf_applicable X M) sf_add ah rl r b) as O.
  destruct (apply_rules (sf_applicable X M) sf_add ah rl r b) as [[r3 mt] es]. cbn [fst snd] in *.
  destruct mt; cbn [snd]; [|rewrite O; intros []]. unfold outs in *. rewrite flat_map_app, O. intros [<-|[]]. exact Q.
Qed.
Lemma engine_data rd r r' : benign ah -> In r' (engine_work X M ah rd r) -> fst r' = fst r.
Proof.
  intros Hb. unfold engine_work. destruct (rd_pi rd) as [p|]; [|intros [<-|[]]; reflexivity]. apply (work_data _ _ _ _ _ Hb).
Qed.
End W.

Lemma tuned_start X M pmatch ord n h conf conf' rd rd' : tuned conf conf' -> monitor_is conf NoneType \/ no_policies conf ->
  InitModel.init (sf_ops X M) pmatch ord n h conf = Ok (Some rd) -> InitModel.init (sf_ops X M) pmatch ord n h conf' = Ok (Some rd') ->
  forall ah r, engine_work X M ah rd r = engine_work X M ah rd' r.
Proof.
  intros T F Hi Hi' ah r. pose proof (tuned_conf conf conf' T) as (E1 & E2 & E3 & E4 & E5 & E6 & E7).
  assert (Q : rd_pi rd = rd_pi rd' /\ c_mode (rd_conf rd) = c_mode (rd_conf rd')).
  { unfold InitModel.init in Hi, Hi'. rewrite <- E1, <- E4, <- E5 in Hi'. set (c := fst (create_config conf)) in *. set (c' := fst (create_config conf')) in *.
    destruct (seqb (c_policies c) "") eqn:Ep.
    - destruct (c_mode c) eqn:Em; [|discriminate]. injection Hi as <-. injection Hi' as <-. cbn. now rewrite Em, <- E4.
    - assert (Mn : c_monitor c = NoneType).
      { destruct F as [F|F]; [|pose proof (no_policies_empty conf F) as X0; fold c in X0; rewrite X0, seqb_refl in Ep; discriminate].
        destruct (conf_parts conf) as (_ & _ & _ & _ & Mc). exact (word_option_fun _ _ _ _ _ _ _ monitor_fun Mc F). }
      rewrite Mn in Hi, Hi'.
      assert (Ec : create_interpreter (sf_ops X M) pmatch ord n h c = create_interpreter (sf_ops X M) pmatch ord n h c')
        by (unfold create_interpreter, compile_policies; now rewrite E1, E2, E3, E6, E7).
      rewrite <- Ec in Hi'. destruct (create_interpreter (sf_ops X M) pmatch ord n h c) as [[p|]| | |]; cbn [rbind] in Hi, Hi'; try discriminate.
      unfold start_ok in *. destruct (_ || _)%bool in Hi; [discriminate|]. destruct (_ || _)%bool in Hi'; [discriminate|].
      injection Hi as <-. injection Hi' as <-. cbn. auto. }
  destruct Q as [Q1 Q2]. unfold engine_work. rewrite Q1, Q2. reflexivity.
Qed.

(** ** Lives *)
Section L.
Variables (P : payloads) (ipstr : Z -> string) (jsonsvcs : list service -> string) (hash : flatrec -> Z).
Variables (X : sfgo_fns) (M : gomap fieldmap) (pmatch : string -> string -> bool) (ord : srule -> list nat -> list (string * search)) (n : nat).
Variable ah : ahandler sfrec.
Notation attempted := (attempted P ipstr jsonsvcs hash X M pmatch ord n ah).
Notation starts h conf rd := (InitModel.init (sf_ops X M) pmatch ord n h conf = Ok (Some rd)).
Notation flats l := (map (fun xe : fctx * fevent => flatten ipstr jsonsvcs (fst xe) (snd xe)) l).
Notation wrap l := (map (fun fr => (fr, ctx_new)) l).
Definition fixed (conf : gomap cval) : Prop := (exists d, policies_in conf d) /\ monitor_is conf NoneType \/ no_policies conf.
Lemma life_all h conf rd fconf rs a : fixed conf -> starts h conf rd -> filter_config fconf = None -> SpecReader.Sane false rs ->
  attempted rd fconf rs a -> x_open (a_exp a) = false ->
  exists st ds, ReaderModel.reader_run false ReaderModel.reader_init rs = Ok (st, ds) /\
    Permutation (concat (x_batches (a_exp a))) (flat_map (engine_work X M ah rd) (wrap (flats (events P ds)))) /\
    (Z.to_nat (c_concurrency (rd_conf rd)) = 1 \/ no_policies conf -> concat (x_batches (a_exp a)) = flat_map (engine_work X M ah rd) (wrap (flats (events P ds)))).
Proof.
  intros Hfix Hi Ho Sn (A & H & Ex) Ca.
  destruct (exact_moment P (a_clk a) ipstr jsonsvcs hash X M pmatch ord n ah rd (a_buffer a) (a_start a) (a_cap a) fconf (a_acts a) rs A Sn Ho (a_trace a) (a_end a) (a_exp a) H Ex)
    as (rin & more & st & ds & out1 & out2 & chs & e & pol & ltr & late & Er & Rr & Fo & Lr & Tk & Em & Fi).
  destruct (Fi Ca) as (-> & -> & -> & Fe). rewrite !app_nil_r in *. subst rin.
  exists st, ds. split; [exact Rr|]. rewrite Fo, <- Tk, <- Em. split.
  - exact (engine_all X M pmatch ord n ah rd h conf Hfix Hi _ _ _ _ Lr Fe).
  - intros One. unfold live_start in Lr. destruct (live_projects _ _ _ _ _ _ _ _ _ _ _ _ _ _ Lr) as (cs & _ & _ & Hr & _).
    destruct (fixed_start X M pmatch ord n rd h conf Hfix Hi) as [([fs rl] & E & Es)|[E Es]]; rewrite Es in Hr.
    + rewrite (g_some X M ah rd _ E). destruct One as [One|Hn].
      * rewrite One in Hr. exact (pool_engine_one _ _ _ _ _ nd_two _ _ _ _ _ Hr Fe 2 (or_introl eq_refl)).
      * exfalso. destruct (init_no_policies (sf_ops X M) pmatch ord n h conf Hn) as [H1 H2]. destruct (conf_parts conf) as (_ & _ & _ & Hm & _).
        destruct (c_mode (fst (create_config conf))); [rewrite (H1 Hm) in Hi; injection Hi as Er; rewrite <- Er in E; discriminate|]. rewrite (H2 Hm) in Hi. discriminate.
    + rewrite (g_none X M ah rd E). destruct (pool_bypass _ _ _ nd_two _ _ _ Hr) as (Q & _). destruct (Q 2 (or_introl eq_refl)) as (rest & Q1 & _ & Q2).
      assert (Rt : In LReturn ltr).
      { apply PoolFacts.run_reach in Hr. apply (PoolFacts2.ax_ret _ _ (PoolFacts2.aux_reach _ _ _ _ _ _ PoolFacts2.aux_bypass Hr)). rewrite Fe. split; [reflexivity|discriminate]. }
      rewrite (Q2 Rt), app_nil_r in Q1. now rewrite Q1.
Qed.
(** The file of a complete life. *)
Lemma life_lines h conf rd fconf rs a two version : fixed conf -> starts h conf rd -> filter_config fconf = None -> SpecReader.Sane false rs -> benign ah ->
  attempted rd fconf rs a -> x_open (a_exp a) = false ->
  exists lns, Forall2 (fun r l => json_of X two version r = Ok l) (concat (x_batches (a_exp a))) lns /\ made_of_lines (file_text (enc_json X two version) a) lns.
Proof.
  intros Hfix Hi Ho Sn Hb Ha Ca. destruct (life_all h conf rd fconf rs a Hfix Hi Ho Sn Ha Ca) as (st & ds & Rr & Pm & _). destruct Ha as (A & H & Ex).
  destruct (encoded X two version (concat (x_batches (a_exp a)))) as (lns & Fln & _).
  { intros r Hr. apply (Permutation_in _ Pm) in Hr. apply in_flat_map in Hr as (r0 & Hr0 & Hr). apply (engine_data _ _ _ _ _ _ Hb) in Hr.
    apply in_map_iff in Hr0 as (fr & <- & Hf). apply in_map_iff in Hf as (xe & <- & _). cbn [fst] in Hr. unfold json_of. rewrite Hr. apply JsonFlat.flat_encodes. }
  exists lns. split; [exact Fln|]. unfold file_text. change "" with (file_init true ""). apply file_lines; [reflexivity|reflexivity| |exact Fln].
  pose proof (app_safe _ _ _ _ _ _ _ _ _ _ _ _ _ _ (a_cap a) fconf (a_acts a) rs A Sn _ _ H) as Cr.
  destruct (snapshot _ _ _ _ _ _ _ _ _ _ _ _ _ _ (a_cap a) fconf (a_acts a) rs A _ _ H Cr) as ([done l rs' pc rd1 f rin dsx e chs ltr x' es] & K).
  destruct K as (_ & _ & _ & _ & _ & _ & _ & _ & _ & _ & _ & _ & _ & _ & _ & _ & _ & E3 & Exx & _). rewrite E3 in Ex. injection Ex as ->. rewrite Exx.
  destruct (ExportFacts.run_good (R := sfrec) (a_buffer a) (a_start a) es) as [_ G]. eapply Forall_impl; [|exact G]. intros bb [L _] ->. cbn in L. lia.
Qed.
(** Without policies, whatever the rate filter: what passes it, with the readings of the clock of that life. *)
Lemma life_filtered h conf rd fconf rs a : no_policies conf -> starts h conf rd -> SpecReader.Sane false rs ->
  attempted rd fconf rs a -> x_open (a_exp a) = false ->
  exists st ds, ReaderModel.reader_run false ReaderModel.reader_init rs = Ok (st, ds) /\
    concat (x_batches (a_exp a)) = wrap (concat (fl_out (handle_all (a_clk a) ipstr jsonsvcs hash (mkFlt (f_conf fconf) [[]]) (events P ds)))).
Proof.
  intros Hn Hi Sn (A & H & Ex) Hx. pose proof (app_safe _ _ _ _ _ _ _ _ _ _ _ _ _ _ (a_cap a) fconf (a_acts a) rs A Sn _ _ H) as C.
  destruct (snapshot _ _ _ _ _ _ _ _ _ _ _ _ _ _ (a_cap a) fconf (a_acts a) rs A _ _ H C) as (k & K).
  destruct k as [done l rs' pc rd1 f rin ds [e pol] chs ltr x' es].
  destruct K as (E0 & (Ea & Nw) & Ers & D1 & D2 & C1 & E1 & (q1 & Q1 & Q1') & Er & C2 & F1 & E2 & Hl & Hb & (out & q & Ht & Hq & Eo) & C3 & F2 & E3 & Exx & (qx & Hqx & Hqx') & F3).
  rewrite E3 in Ex. injection Ex as ->. destruct (F3 Hx) as [G1 G2]. apply C3 in G2.
  edestruct (eng_state (a_clk a) ipstr X M pmatch ord n ah rd (a_buffer a)) as (Px & Np & Cx & Mx & _ & Eof & _); [exact Hl|].
  pose proof (closed_two _ _ Cx G2) as In2.
  destruct Mx as [Mx|[_ Mx]]; [rewrite Mx in In2; destruct In2|].
  assert (Ie : In LEof ltr) by (apply Eof; destruct Mx as [-> | -> ]; reflexivity).
  destruct (F2 Ie) as [G3 G4]. rewrite C2 in G4. destruct pc; try discriminate. destruct (F1 Logic.I) as [G5 G6]. rewrite C1 in G6. destruct (D1 G6) as [-> _].
  rewrite G5 in Q1'. destruct q1; [|discriminate]. cbn [r_hand] in Q1. rewrite !app_nil_r in *. subst rin. rewrite <- Ers in Er.
  rewrite G3 in Hq. destruct q; [|discriminate]. cbn [r_pend] in Eo. rewrite !app_nil_r in Eo.
  rewrite G1 in Hqx'. destruct qx; [|discriminate]. rewrite app_nil_r in Hqx.
  exists rd1, ds. split; [exact Er|]. rewrite <- Eo.
  destruct (ExportFacts.batching (a_buffer a) (a_start a) es) as [B1 _]. rewrite <- Exx, Hx, app_nil_r in B1. rewrite B1, <- Hqx, <- Ht.
  edestruct (ends (a_clk a) ipstr X M pmatch ord n ah rd (a_buffer a)) as (chs' & e' & ltr' & Hl' & Fe & T1 & T2); [exact Hl|exact Mx|]. rewrite <- T1, <- T2.
  unfold live_start in Hl'. destruct (live_projects _ _ _ _ _ _ _ _ _ _ _ _ _ _ Hl') as (cs & _ & _ & Hr & _).
  destruct (fixed_start X M pmatch ord n rd h conf (or_intror Hn) Hi) as [([fs rl] & E & Es)|[E Es]].
  - exfalso. destruct (init_no_policies (sf_ops X M) pmatch ord n h conf Hn) as [H1 H2]. destruct (conf_parts conf) as (_ & _ & _ & Hm & _).
    destruct (c_mode (fst (create_config conf))); [rewrite (H1 Hm) in Hi; injection Hi as Er'; rewrite <- Er' in E; discriminate|]. rewrite (H2 Hm) in Hi. discriminate.
  - rewrite Es in Hr. destruct (pool_bypass _ _ _ nd_two _ _ _ Hr) as (Q & _). destruct (Q 2 (or_introl eq_refl)) as (rest & Qa & _ & Q2).
    assert (Rt : In LReturn ltr').
    { apply PoolFacts.run_reach in Hr. apply (PoolFacts2.ax_ret _ _ (PoolFacts2.aux_reach _ _ _ _ _ _ PoolFacts2.aux_bypass Hr)). rewrite Fe. split; [reflexivity|discriminate]. }
    rewrite (Q2 Rt), app_nil_r in Qa. now rewrite Qa.
Qed.
End L.
