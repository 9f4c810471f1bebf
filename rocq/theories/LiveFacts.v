(** * LiveFacts: the policy engine with its monitor; eras. *)
From Coq Require Import Lia Permutation.
From Verif Require Import GoBase GoFacts Predicates FlatRecord FalcoModel SpecFalco SpecFlat SigmaModel SpecSigma SigmaFacts LexerModel SpecLexer
  EngineModel EngineFlat SpecEngine EngineFacts SpecEngineFlat EngineFacts2 PoolModel SpecPool PoolFacts PoolFacts2 PoolFacts3 PoolFacts4 MonitorModel SpecMonitor MonitorFacts
  InitModel SpecInit InitFacts.

Section L.
Context {R : Type}.
Variable ops : operations R.
Variable pmatch : string -> string -> bool.
Variable ord : srule -> list nat -> list (string * search).
Variable fuel : nat.
Variable proc : policies R -> R -> option R.
Variable conc : nat.
Variable outCh : list nat.
Variable c : config.
Notation create := (create_interpreter ops pmatch ord fuel).
Notation lstep := (live_step ops pmatch ord fuel proc conc outCh c).
Notation lrun := (live_run ops pmatch ord fuel proc conc outCh c).

(** One batch of file events adds nothing or the interpreter compiled from what it shows. *)
Lemma files_queue pol (q : list (policies R)) evs v paths o :
  let m' := fst (mon_step (mkM pol q) (EFiles evs v paths o)) in
  m_queue m' = q \/ exists p, o = Some p /\ length q < mon_capacity /\ m_queue m' = q ++ [p].
Proof.
  cbn [mon_step m_policies m_queue]. destruct (existsb has_modified_yaml evs); [|auto].
  destruct (calculate_checksum pol v) as [pol' oc]. destruct (o_err oc && o_nofiles oc)%bool; [auto|].
  destruct (o_changes oc || o_err oc)%bool; [|auto]. cbn [fst]. unfold check_for_update.
  destruct paths as [[|x l]|]; auto. destruct o as [p|]; auto. cbn [m_policies m_queue fst].
  destruct (Nat.ltb_spec (length q) mon_capacity); [right; exists p|left]; auto.
Qed.
(** A run with the monitor is a run of the goroutines of the plugin, whose publications are
    compiled from batches, in order. *)
Lemma live_projects chs : forall s pol s' pol' tr, lrun (s, pol) chs = ((s', pol'), tr) ->
  exists cs hs ps, run proc conc outCh s cs = (s', tr) /\ subseq hs (batches chs) /\
    Forall2 (fun h p => create h c = Ok (Some p)) hs ps /\ published tr = ps.
Proof.
  induction chs as [|ch chs IH]; intros s pol s' pol' tr H.
  - injection H as <- <- <-. exists [], [], []. repeat split; constructor.
  - cbn [live_run] in H. destruct (lstep (s, pol) ch) as [[[s1 pol1] ls]|] eqn:E.
    2:{ destruct (IH _ _ _ _ _ H) as (cs & hs & ps & H1 & H2 & H3 & H4). exists cs, hs, ps. repeat split; auto.
        destruct ch; cbn; auto. now apply ss_skip. }
    destruct (lrun (s1, pol1) chs) as [[s2 pol2] ls'] eqn:E2. injection H as <- <- <-.
    destruct (IH _ _ _ _ _ E2) as (cs & hs & ps & H1 & H2 & H3 & H4).
    destruct ch as [ch|evs v paths h].
    + assert (F : exists l, fire proc conc outCh s ch = Some (s1, l) /\ ls = [l] /\ published [l] = []).
      { cbn [live_step fst snd] in E.
        assert (NP : (forall p, ch <> CPublish p) /\ exists l, fire proc conc outCh s ch = Some (s1, l) /\ ls = [l]).
        { destruct ch; try discriminate; (split; [discriminate|]);
            (destruct (fire proc conc outCh s _) as [[s3 l]|]; [|discriminate]); injection E as <- <- <-; eauto. }
        destruct NP as [NP (l & F & ->)]. exists l. split; [assumption|]. split; [reflexivity|].
        destruct l; try reflexivity. exfalso. clear - F NP. unfold fire in F. destruct (s_panic s); [discriminate|].
        destruct ch as [i|b| |g w|p'].
        1-3: unfold fire_main, send_out, crash in F; destruct (s_main s) as [|r|r p1|r p1|r|r [|k ks]| | | |[|k ks]|]; try discriminate;
          repeat match type of F with
          | context [match ?x with _ => _ end] => destruct x; try discriminate
          end.
        - unfold fire_worker, send_out, crash in F. repeat match type of F with
          | context [match ?x with _ => _ end] => destruct x; try discriminate
          end.
        - now apply (NP p'). }
      destruct F as (l & F & -> & P0). exists (ch :: cs), hs, ps. split; [cbn; rewrite F, H1; reflexivity|].
      split; [cbn; assumption|]. split; [assumption|]. change ([l] ++ ls') with ([l] ++ ls'). rewrite published_app, P0. exact H4.
    + cbn [live_step fst snd] in E. destruct (s_panic s) eqn:Pn; [discriminate|].
      destruct (s_monq s) as [q|] eqn:Q; [|discriminate].
      destruct (create h c) as [o| | |] eqn:Cr; try discriminate.
      destruct (files_queue pol q evs v paths o) as [Eq|(p & -> & Lq & Eq)]; cbn zeta in Eq; rewrite Eq in E.
      * rewrite skipn_all in E. cbn [map] in E. injection E as <- <- <-.
        assert (Es : mkSt (s_main s) (s_pi s) (s_pools s) (Some q) (s_closed s) (s_panic s) = s) by (destruct s; cbn in *; subst; reflexivity).
        rewrite <- Pn, Es in H1. exists cs, hs, ps. repeat split; auto. cbn. now apply ss_skip.
      * rewrite skipn_app, skipn_all, Nat.sub_diag in E. cbn [skipn app map] in E. injection E as <- <- <-.
        exists (CPublish p :: cs), (h :: hs), (p :: ps). split.
        -- cbn [run]. unfold fire. rewrite Pn, Q. apply Nat.ltb_lt in Lq. rewrite Lq. rewrite H1. reflexivity.
        -- split; [cbn; now constructor|]. split; [now constructor|]. change (published ([LPublish p] ++ ls') = p :: ps). rewrite published_app, H4. reflexivity.
Qed.
End L.

(** The records queued, grouped by the policy set in force. *)
Lemma accepted_eras {P R} (tr : list (label P R)) : forall p0,
  exists rss, length rss = S (length (installed tr)) /\
    accepted p0 tr = concat (map (fun pr => map (pair (fst pr)) (snd pr)) (combine (p0 :: installed tr) rss)).
Proof.
  induction tr as [|l tr IH]; intros p0.
  - exists [[]]. split; reflexivity.
  - destruct l as [r| |r|p r|k r|p|p|p| |k| |]; try exact (IH p0).
    + destruct (IH p0) as ([|rs rss] & L & E); [discriminate|]. exists ((r :: rs) :: rss). split; [exact L|]. cbn. rewrite E. reflexivity.
    + destruct (IH p) as (rss & L & E). exists ([] :: rss). cbn. split; [now rewrite L|]. rewrite E. reflexivity.
Qed.
Lemma subseq_app_l {A} (a b l : list A) : subseq (a ++ b) l -> subseq a l.
Proof.
  intros H. remember (a ++ b) as ab eqn:E. revert a E. induction H as [|x a0 b0 H IH|x a0 b0 H IH]; intros a E.
  - symmetry in E. apply app_eq_nil in E as [-> _]. constructor.
  - destruct a as [|y a]; [apply subseq_skips|]. injection E as -> E. constructor. auto.
  - apply ss_skip. auto.
Qed.

(** Both modes of operation, for any language and any description [E] of policies. *)
Section Gen.
Context {R E : Type}.
Variable ops : operations R.
Variable pmatch : string -> string -> bool.
Variable ord : srule -> list nat -> list (string * search).
Variable fuel : nat.
Variables (applicable : R -> rule R -> bool) (add : R -> rule R -> R) (ah : ahandler R) (m : mode).
Variable conf : gomap cval.
Variables (good : host -> Prop) (gov : host -> E -> Prop) (disp : E -> R -> list R -> Prop).
Notation create := (create_interpreter ops pmatch ord fuel).
Hypothesis Hgov : forall h p, good h -> create h (fst (create_config conf)) = Ok (Some p) ->
  exists e, gov h e /\ forall r, disp e r (outs (snd (work applicable add ah m (fst p) (snd p) r))).
Lemma static_gen h d outCh rd cs s tr :
  policies_in conf d -> monitor_is conf NoneType -> good h -> NoDup outCh ->
  init ops pmatch ord fuel h conf = Ok (Some rd) ->
  run (engine_proc applicable add ah m) (Z.to_nat (c_concurrency (rd_conf rd))) outCh (pool_start rd) cs = (s, tr) ->
  finished s ->
  exists e, gov h e /\ forall c, In c outCh -> exists os, Forall2 (disp e) (taken tr) os /\ Permutation (emitted c tr) (concat os).
Proof.
  intros Hd Hmon Hg ND Hi Hrun Hfin.
  apply (init_iff _ _ _ _ h conf d rd Hd) in Hi as (p & C & _ & [[_ ->]|(Ml & _ & _)]).
  2:{ pose proof (word_option_fun _ _ _ _ _ _ _ monitor_fun Hmon Ml). discriminate. }
  destruct (Hgov _ _ Hg C) as (e & Ge & D). exists e. split; [assumption|]. intros c Hch.
  destruct p as [filters rules]. cbn [pool_start rd_pi rd_mon rd_conf fst snd] in *.
  pose proof (pool_engine _ _ _ _ _ outCh ND filters rules cs s tr Hrun Hfin c Hch) as Q.
  exists (map (fun r => outs (snd (work applicable add ah m filters rules r))) (taken tr)). split.
  - generalize (taken tr). intros l. induction l as [|r l IH]; cbn; constructor; [apply D|assumption].
  - rewrite <- flat_map_concat_map. exact Q.
Qed.
Lemma eras_gen h d outCh rd chs s pol tr :
  policies_in conf d -> monitor_is conf LocalType -> good h -> (forall h', In h' (batches chs) -> good h') -> NoDup outCh ->
  init ops pmatch ord fuel h conf = Ok (Some rd) ->
  live_run ops pmatch ord fuel (engine_proc applicable add ah m)
    (Z.to_nat (c_concurrency (rd_conf rd))) outCh (rd_conf rd) (live_start rd) chs = ((s, pol), tr) ->
  finished s ->
  exists hs eras, subseq hs (batches chs) /\ taken tr = concat (map snd eras) /\
    Forall2 (fun h' era => gov h' (fst era)) (h :: hs) eras /\
    forall c, In c outCh -> exists oss,
      Forall2 (fun era os => Forall2 (disp (fst era)) (snd era) os) eras oss /\
      Permutation (emitted c tr) (concat (map (@concat R) oss)).
Proof.
  intros Hd Hmon Hf Hfs ND Hi Hrun Hfin.
  apply (init_iff _ _ _ _ h conf d rd Hd) in Hi as (p0 & C0 & _ & [[Mn _]|(_ & _ & ->)]).
  { pose proof (word_option_fun _ _ _ _ _ _ _ monitor_fun Hmon Mn). discriminate. }
  unfold live_start in Hrun. cbn [pool_start rd_pi rd_mon rd_conf m_policies m_queue] in Hrun.
  set (cf := fst (create_config conf)) in *. set (conc := Z.to_nat (c_concurrency cf)) in *.
  destruct (live_projects _ _ _ _ _ _ _ _ _ _ _ _ _ _ Hrun) as (cs & hs0 & ps & Hr & Hsub & Hcr & Hpub).
  assert (St : starts conc p0 [] (init_monitor conc p0 [] : st (policies R) R)) by (left; reflexivity).
  destruct (pool_exactly_once _ _ _ ND _ _ _ _ _ _ St Hr Hfin) as (P1 & P2 & P3 & _).
  destruct (pool_in_flight _ _ _ ND _ _ _ _ _ _ St Hr) as (_ & (hand & Eh & _) & _).
  assert (Hh : hand = []).
  { apply Permutation_length in P1. apply Permutation_length in P2. rewrite map_length in P1. rewrite Eh, app_length, map_length in P1.
    destruct hand; [reflexivity|cbn in P1; lia]. }
  subst hand. rewrite app_nil_r in Eh.
  destruct (pool_swap _ _ _ ND _ _ _ _ _ _ St Hr) as [(rest & Epub) _]. cbn [app] in Epub.
  (* the hosts of the installed sets *)
  assert (Hh : exists hs, subseq hs (batches chs) /\ Forall2 (fun h p => create h cf = Ok (Some p)) hs (installed tr)).
  { rewrite <- Hpub, Epub in Hcr. apply Forall2_app_inv_r in Hcr as (l1 & l2 & F1 & _ & ->).
    exists l1. split; [eapply subseq_app_l; eassumption|assumption]. }
  destruct Hh as (hs & Hs2 & F).
  destruct (accepted_eras tr p0) as (rss & Lr & Ea).
  assert (F0 : Forall2 (fun h p => good h /\ create h cf = Ok (Some p)) (h :: hs) (p0 :: installed tr)).
  { constructor; [auto|].
    assert (G : forall x, In x hs -> good x).
    { intros x Hx. apply Hfs. clear - Hs2 Hx. induction Hs2; [destruct Hx| |right; auto]. destruct Hx as [->|Hx]; [now left|right; auto]. }
    clear - F G. induction F as [|x p hs ps Hx F IH]; constructor; [split; [apply G; now left|assumption]|]. apply IH. intros y Hy. apply G. now right. }
  set (ws := p0 :: installed tr) in *.
  assert (Lw : length rss = length ws) by exact Lr. clear Lr.
  assert (Sol : exists eras, map snd eras = rss /\
    Forall2 (fun h' era => gov h' (fst era)) (h :: hs) eras /\
    Forall2 (fun era os => Forall2 (disp (fst era)) (snd era) os) eras
      (map (fun pr => map (fun r => outs (snd (work applicable add ah m (fst (fst pr)) (snd (fst pr)) r))) (snd pr)) (combine ws rss))).
  { clear - F0 Lw Hgov. revert rss Lw. induction F0 as [|x p xs ps [Hx Hp] F0 IH]; intros rss Lw.
    - destruct rss; [|discriminate]. exists []. repeat split; constructor.
    - destruct rss as [|rs rss]; [discriminate|]. injection Lw as Lw. destruct (IH rss Lw) as (eras & E1 & E2 & E3).
      destruct (Hgov _ _ Hx Hp) as (e & Ge & D).
      exists ((e, rs) :: eras). cbn [map snd fst combine]. rewrite E1. split; [reflexivity|]. split.
      + constructor; assumption.
      + constructor; [|assumption]. cbn [fst snd]. clear - D. induction rs as [|r rs IH]; cbn; constructor; auto. }
  destruct Sol as (eras & E1 & E2 & E3). exists hs, eras. split; [assumption|]. split; [|split; [assumption|]].
  - rewrite Eh, Ea, E1. clear - Lw. revert rss Lw. induction ws as [|p ws IH]; intros rss Lw; destruct rss as [|rs rss]; try discriminate; [reflexivity|].
    injection Lw as Lw. cbn [combine map concat fst snd]. rewrite map_app, (IH rss Lw), map_map. cbn. now rewrite map_id.
  - intros c Hc. eexists. split; [exact E3|].
    etransitivity; [exact (P3 c Hc)|].
    etransitivity; [apply Permutation_refl'; exact (due_engine applicable add ah m (evaluated tr))|].
    etransitivity; [symmetry; exact (Permutation_flat_map _ P2)|]. rewrite Ea.
    apply Permutation_refl'. clear. revert rss. induction ws as [|p ws IH]; intros rss; [reflexivity|]. destruct rss as [|rs rss]; [reflexivity|].
    cbn [combine map concat fst snd]. etransitivity; [apply flat_map_app|]. etransitivity; [apply f_equal; exact (IH rss)|].
    apply (f_equal (fun z => app z _)).
    induction rs as [|r rs IHr]; cbn; [reflexivity|]. now rewrite IHr.
Qed.
End Gen.

(** Rules without actions: the registered actions do not matter. *)
Lemma work_no_actions {R} applicable add (ah ah' : ahandler R) m filters rules r : Forall (fun ru => r_actions ru = []) rules ->
  work applicable add ah m filters rules r = work applicable add ah' m filters rules r.
Proof.
  intros H. unfold work. destruct (eval_filters filters r); [reflexivity|].
  assert (E : forall r b, apply_rules applicable add ah rules r b = apply_rules applicable add ah' rules r b).
  { induction H as [|ru rules Hn H IH]; intros q b; [reflexivity|]. cbn [apply_rules].
    destruct (r_enabled ru && applicable q ru && c_eval (r_cond ru) q)%bool; [|apply IH].
    unfold handle_actions. rewrite Hn. cbn [run_actions]. now rewrite IH. }
  now rewrite E.
Qed.

Section E.
Variable X : sfgo_fns.
Variable M : gomap fieldmap.
Variable typ : flatrec -> string.
Hypothesis Htyp : map_str X M "sf.type" = Ok typ.
Variable pmatch : string -> string -> bool.
Variable ord : srule -> list nat -> list (string * search).
Variable fuel : nat.
Notation create := (create_interpreter (sf_ops X M) pmatch ord fuel).

Lemma live_eras h conf d ah m outCh rd chs s pol tr :
  policies_in conf d -> language_is conf Falco -> monitor_is conf LocalType -> mode_is conf m ->
  benign ah -> faithful h d -> (forall h', In h' (batches chs) -> faithful h' d) -> NoDup outCh ->
  init (sf_ops X M) pmatch ord fuel h conf = Ok (Some rd) ->
  live_run (sf_ops X M) pmatch ord fuel (engine_proc (sf_applicable X M) sf_add ah m)
    (Z.to_nat (c_concurrency (rd_conf rd))) outCh (rd_conf rd) (live_start rd) chs = ((s, pol), tr) ->
  finished s ->
  exists hs eras, subseq hs (batches chs) /\ taken tr = concat (map snd eras) /\
    Forall2 (fun h' era => exists texts, texts_of h' d texts /\ Forall2 text_reads texts (fst era)) (h :: hs) eras /\
    forall c, In c outCh -> exists oss,
      Forall2 (fun era os => Forall2 (disposed X M typ (fst era) m) (snd era) os) eras oss /\
      Permutation (emitted c tr) (concat (map (@concat sfrec) oss)).
Proof.
  intros Hd Hl Hmon Hm Hb Hf Hfs ND Hi Hrun Hfin.
  apply (eras_gen (sf_ops X M) pmatch ord fuel (sf_applicable X M) sf_add ah m conf (fun h' => faithful h' d)
    (fun h' dss => exists texts, texts_of h' d texts /\ Forall2 text_reads texts dss) (fun dss => disposed X M typ dss m)) with (d := d) (rd := rd) (chs := chs) (s := s) (pol := pol); try assumption.
  intros h' p Hh Hp. destruct (interpreter_texts X M typ Htyp _ _ _ _ _ _ _ m _ Hd Hl Hb Hh Hp) as (texts & dss & T & Fr & D).
  exists dss. split; [exists texts; auto|exact D].
Qed.
(** Sigma. *)
Hypothesis Hord : forall r p, Permutation (ord r p) (sr_searches r).
Lemma sf_smodels r : smodels (sf_ops X M) r (flat_satomic X M (fst r)).
Proof.
  destruct (flat_smodels X M (fst r)) as (H1 & H2). split.
  - intros l rr op c H. apply sf_lift_ok in H as (c0 & H & E). rewrite E. auto.
  - intros l re c H. apply sf_lift_ok in H as (c0 & H & E). rewrite E. auto.
Qed.
Lemma sigma_work maps srs rules ah m r : Forall2 (srule_of (sf_ops X M) maps pmatch) (s_conditions srs) rules ->
  s_disposed X M pmatch maps srs m r (outs (snd (sf_work X M ah m [] rules r))).
Proof.
  intros F1. unfold sf_work. rewrite (work_no_actions _ _ ah (new_ahandler [])).
  2:{ clear - F1. induction F1 as [|[q e] ru l l' H F IH]; constructor; [apply H|assumption]. }
  set (ah0 := new_ahandler []).
  assert (Hin : inert (fun a b : sfrec => fst a = fst b) (sf_applicable X M) sf_add ah0 rules).
  { split; [auto|]. split; [intros a b c -> ->; auto|]. split; [|split].
    - intros a b ru E Hr. split; [|unfold sf_applicable; rewrite E; auto].
      clear -F1 Hr E. induction F1 as [|[q e] ru0 l l' H F IH]; [destruct Hr|]. destruct Hr as [<-|Hr]; auto.
      destruct H as (_ & _ & _ & _ & _ & _ & _ & H). pose proof (H a _ (sf_smodels a)) as Ha. pose proof (H b _ (sf_smodels b)) as Hb.
      rewrite E in Ha. rewrite <- Hb in Ha. destruct (r_cond ru0 a), (r_cond ru0 b); intuition congruence.
    - reflexivity.
    - discriminate. }
  pose proof (work_get (sf_applicable X M) sf_add ah0 (fun r : sfrec => ctx_getrules (snd r)) meta) as G.
  assert (Hadd : forall (r : sfrec) ru, ctx_getrules (snd (sf_add r ru)) = ctx_getrules (snd r) ++ [meta ru]).
  { intros [? c] ru. unfold sf_add, ctx_getrules. simpl. destruct (cx_rules c); reflexivity. }
  assert (Hna : forall a f (r : sfrec), find_action ah0 a = Some f -> ctx_getrules (snd (fst (f r))) = ctx_getrules (snd r)) by discriminate.
  specialize (G Hadd Hna m [] rules r).
  pose proof (work_kept (sf_applicable X M) sf_add ah0 (fun a b : sfrec => fst a = fst b) m [] rules r Hin) as K.
  destruct (work (sf_applicable X M) sf_add ah0 m [] rules r) as [r' es].
  destruct K as (fired & es0 & S1 & S2 & S3 & S4); [intros f []|].
  destruct (selects_transport (srule_of (sf_ops X M) maps pmatch)
    (fun re => cond_holds maps pmatch (flat_satomic X M (fst r)) (sr_searches (fst re)) (snd re)) (fires (sf_applicable X M) r) _ _ fired F1) as (fod & T1 & T2); auto.
  { intros [q e] ru _ (_ & _ & _ & _ & _ & Hp & He & H). unfold fires, sf_applicable. rewrite Hp, He. cbn [fr_applicable fst snd].
    rewrite (H r _ (sf_smodels r)). tauto. }
  destruct (blocks_annots ah0 fired es0 S2) as [B1 B2].
  assert (N : Forall2 s_marked fod (map meta fired)).
  { clear -T2. induction T2 as [|[q e] ru l l' H F IH]; cbn [map]; constructor; auto.
    destruct H as (H1 & H2 & H3 & H4 & H5 & _). unfold s_marked. cbn [meta m_name m_desc m_prio m_actions m_tags fst]. auto 10. }
  assert (NE : fod = [] <-> fired = []) by (split; intros ->; inversion T2; auto).
  right. split; [tauto|]. exists fod, (map meta fired). split; [assumption|]. split; [assumption|].
  destruct S4 as [[Hm ->]|(Hm & Hfn & -> & ->)].
  - right. split; [rewrite NE; assumption|]. exists r'. cbn [snd]. rewrite outs_app, B2. split; [reflexivity|]. split; [auto|].
    cbn [fst snd] in G. rewrite G, annots_app, B1. cbn. now rewrite app_nil_r.
  - left. rewrite NE. auto.
Qed.
Lemma interpreter_sigma h conf d ah m p :
  policies_in conf d -> language_is conf Sigma -> h_perf h = false -> create h (fst (create_config conf)) = Ok (Some p) ->
  exists ms, sigma_of h conf d ms /\ forall r, s_disposed X M pmatch (fst ms) (snd ms) m r (outs (snd (sf_work X M ah m (fst p) (snd p) r))).
Proof.
  intros Hd Hl Hperf Hc.
  apply (create_iff _ _ _ _ h conf d p Hd) in Hc as (rules & C & Er).
  rewrite Hperf in Er. unfold bench_rules in Er. rewrite Er.
  destruct C as [paths Hl' _ _ _|paths cfg maps _ Hr Nn Hcfg Hs Hc Hf].
  { pose proof (word_option_fun _ _ _ _ _ _ _ language_fun Hl Hl'). discriminate. }
  rewrite Hf.
  destruct (s_compile_spec (sf_ops X M) maps pmatch ord Hord _ _ Hc) as (srs & Rd & F1).
  exists (maps, srs). split; [exists paths, cfg; cbn [fst snd]; auto|]. intros r. cbn [fst snd]. exact (sigma_work maps srs rules ah m r F1).
Qed.
End E.

(** ** A queued policy set is picked up *)
Section P.
Context {P R : Type}.
Variable proc : P -> R -> option R.
Variable conc : nat.
Variable outCh : list nat.
Definition waiting (p : P) (s : st P R) : Prop :=
  s_pi s <> None /\
  match s_main s with
  | MRecv | MHave _ => exists q, s_monq s = Some (p :: q)
  | MStop _ p' | MWait _ p' => p' = p
  | MRet | MClean | MCleanWait | MClose _ | MEnd => True
  | _ => False
  end.
Lemma fire_worker_main s g w s' l : fire_worker proc outCh s g w = Some (s', l) ->
  s_main s' = s_main s /\ s_monq s' = s_monq s /\ s_pi s' = s_pi s /\ (forall x, l <> LSubmit x).
Proof.
  unfold fire_worker, send_out, crash, set_w, set_pool. intros F.
  repeat match type of F with
  | context [match ?x with _ => _ end] => destruct x; try discriminate
  end; injection F as <- <-; repeat split; discriminate.
Qed.
Lemma waiting_step p s c s' l : waiting p s -> c <> CExpired false -> fire proc conc outCh s c = Some (s', l) ->
  l = LSwap p \/ (waiting p s' /\ forall x, l <> LSubmit x).
Proof.
  intros [Hp W] Hc F. unfold fire in F. destruct (s_panic s); [discriminate|]. destruct c as [i|b| |g w|p'].
  - unfold fire_main in F. destruct (s_main s) as [|r|r p1|r p1|r|r [|k ks]| | | |[|k ks]|] eqn:E; try discriminate.
    destruct i; injection F as <- <-; right; (split; [split; cbn; auto|discriminate]).
  - destruct b; [|congruence]. unfold fire_main in F.
    destruct (s_main s) as [|r|r p1|r p1|r|r [|k ks]| | | |[|k ks]|] eqn:E; try discriminate.
    destruct (s_pi s) eqn:Ep; [|congruence]. destruct W as (q & W). rewrite W in F. injection F as <- <-. right. split; [|discriminate].
    split; cbn; [rewrite ?Ep; congruence|reflexivity].
  - unfold fire_main, send_out, crash in F. destruct (s_main s) as [|r|r p1|r p1|r|r [|k ks]| | | |[|k ks]|] eqn:E; try discriminate; cbn in W; try contradiction.
    all: repeat match type of F with
      | context [match ?x with _ => _ end] => destruct x eqn:?; try discriminate
      end; injection F as <- <-; try (left; congruence); right; (split; [split; cbn; try rewrite E; auto; congruence|discriminate]).
  - apply fire_worker_main in F as (E1 & E2 & E3 & E4). right. split; [|assumption]. unfold waiting. rewrite E1, E2, E3. auto.
  - destruct (s_monq s) as [q|] eqn:Q; [|discriminate]. destruct (Nat.ltb (length q) mon_capacity); injection F as <- <-; right; (split; [|discriminate]).
    + split; [exact Hp|]. cbn. destruct (s_main s); auto; destruct W as (q' & W); injection W as ->; cbn; eauto.
    + split; [exact Hp|]. rewrite ?Q. exact W.
Qed.
Lemma picked_up p cs : forall s s' tr, waiting p s -> Forall (fun c => c <> CExpired false) cs -> run proc conc outCh s cs = (s', tr) ->
  forall tr1 x tr2, tr = tr1 ++ LSubmit x :: tr2 -> In (LSwap p) tr1.
Proof.
  induction cs as [|c cs IH]; intros s s' tr W F H tr1 x tr2 E.
  - injection H as <- <-. destruct tr1; discriminate.
  - inversion F as [|? ? Fc F']; subst. cbn [run] in H. destruct (fire proc conc outCh s c) as [[s1 l]|] eqn:Fi; [|exact (IH _ _ _ W F' H _ _ _ eq_refl)].
    destruct (run proc conc outCh s1 cs) as [s2 ls] eqn:Hr. injection H as <- E.
    destruct (waiting_step p s c s1 l W Fc Fi) as [->|[W' N]].
    + destruct tr1 as [|y tr1]; cbn in E; [discriminate|]. injection E as <- E. now left.
    + destruct tr1 as [|y tr1]; cbn in E; injection E as El E; [now destruct (N x)|].
      right. exact (IH _ _ _ W' F' Hr _ _ _ E).
Qed.
Lemma pool_picked_up p q s cs s' tr : s_main s = MRecv -> s_pi s <> None -> s_monq s = Some (p :: q) ->
  Forall (fun c => c <> CExpired false) cs -> run proc conc outCh s cs = (s', tr) ->
  forall tr1 x tr2, tr = tr1 ++ LSubmit x :: tr2 -> In (LSwap p) tr1.
Proof.
  intros H1 H2 H3 F H. apply (picked_up p cs s s' tr); auto. split; [assumption|]. rewrite H1. eauto.
Qed.
End P.
