(** * RerunFacts: what any life on trace files exports is part of what a complete one exports. *)
From Coq Require Import Lia Permutation.
From Verif Require ReaderModel SpecReader ReaderFacts2 DriverModel SpecDriver ExportFacts FlattenFacts2.
From Verif Require Import GoBase GoFacts Predicates FlatRecord SigmaModel EngineModel EngineFlat SpecEngine SpecEngineFlat PoolModel SpecPool PoolFacts PoolFacts2 PoolFacts3 PoolFacts4 MonitorModel
  SpecMonitor InitModel SpecInit InitFacts LiveFacts FlattenModel SpecFlatten ExportModel SpecExport AppModel SpecApp AppFacts ChainModel SpecChain ChainFacts SpecRest RestFacts ChainRest
  EcsModel ElasticModel SpecElastic ElasticFacts RerunModel.
Local Open Scope nat_scope.

Lemma reader_prefix a b st ds : ReaderModel.reader_run false ReaderModel.reader_init (a ++ b) = Ok (st, ds) ->
  exists st1 d1 d2, ReaderModel.reader_run false ReaderModel.reader_init a = Ok (st1, d1) /\ ds = d1 ++ d2.
Proof.
  rewrite ReaderFacts2.reader_run_app. destruct (ReaderModel.reader_run false ReaderModel.reader_init a) as [[s1 d1]| | |]; cbn [rbind]; try discriminate.
  destruct (ReaderModel.reader_run false s1 b) as [[s2 d2]| | |]; cbn [rbind]; try discriminate. intros H. injection H as <- <-. eauto.
Qed.
Lemma sane_first a b : SpecReader.Sane false (a ++ b) -> SpecReader.Sane false a.
Proof. exact (sane_pre a b). Qed.

Lemma f2_map {A B} (f : A -> B) l os : Forall2 (fun a o => o = f a) l os -> os = map f l.
Proof. induction 1 as [|a o l os Ho F IH]; [reflexivity|]. cbn [map]. now rewrite Ho, IH. Qed.
Section F.
Variables (P : payloads) (clk : nat -> Z) (ipstr : Z -> string) (jsonsvcs : list service -> string) (hash : flatrec -> Z).
Variables (X : sfgo_fns) (Mp : gomap fieldmap) (pmatch : string -> string -> bool) (ord : srule -> list nat -> list (string * search)) (fuel : nat).
Variable ah : ahandler sfrec.
Variable rd0 : ready sfrec.
Variables (buffer xstart : Z) (cap : nat) (fconf : gomap string).
Variable acts0 : list (DriverModel.act ReaderModel.rec).
Variable rs : list ReaderModel.rec.
Hypothesis Hacts : source_of rs acts0.
Hypothesis Hsane : SpecReader.Sane false rs.
Hypothesis Hoff : filter_config fconf = None.
Notation stg := (app_stage P clk ipstr jsonsvcs hash X Mp pmatch ord fuel ah rd0 buffer).
Notation cr := (crun stg cap (cinit (app_start rd0 xstart fconf acts0))).
Notation proc := (engine_proc (sf_applicable X Mp) sf_add ah (c_mode (rd_conf rd0))).
Notation conc := (Z.to_nat (c_concurrency (rd_conf rd0))).
Notation lrun := (live_run (sf_ops X Mp) pmatch ord fuel proc conc [2] (rd_conf rd0)).
Notation flats l := (map (fun xe : fctx * fevent => flatten ipstr jsonsvcs (fst xe) (snd xe)) l).
Notation wrap l := (map (fun fr => (fr, ctx_new)) l).

Lemma hall_off l : concat (fl_out (handle_all clk ipstr jsonsvcs hash (mkFlt (f_conf fconf) [[]]) l)) = flats l.
Proof.
  unfold f_conf. rewrite Hoff. cbn [option_map]. change [[]] with (@repeat (list flatrec) [] 1). rewrite (FlattenFacts2.handle_all_off clk ipstr jsonsvcs hash l [] 1). cbn. apply app_nil_r.
Qed.
Lemma ends chs e pol ltr : lrun (live_start rd0) chs = ((e, pol), ltr) -> s_main e = MClose [] \/ s_main e = MEnd ->
  exists chs' e' ltr', lrun (live_start rd0) chs' = ((e', pol), ltr') /\ finished e' /\ taken ltr' = taken ltr /\ emitted 2 ltr' = emitted 2 ltr.
Proof.
  intros Hl [Mx|Mx]; [|exists chs, e, ltr; auto]. edestruct (eng_state clk ipstr X Mp pmatch ord fuel ah rd0 buffer) as (Px & _); [exact Hl|].
  assert (Es : eng_step X Mp pmatch ord fuel ah rd0 (e, pol) (LCh CMain) = Some ((set_main e MEnd, pol), [LTau])).
  { unfold eng_step, live_step, fire. cbn [fst snd]. unfold policies in *. rewrite Px. unfold fire_main. rewrite Mx. reflexivity. }
  exists (chs ++ [LCh CMain]), (set_main e MEnd), (ltr ++ [LTau]). split; [eapply live_run_snoc; [exact Hl|exact Es]|].
  split; [reflexivity|]. rewrite taken_app, emitted_app. cbn. rewrite !app_nil_r. auto.
Qed.
Lemma exact_moment tr s x : cr tr s -> c_st s 3 = DExp x ->
  exists rin more st ds out1 out2 chs e pol ltr late, rs = rin ++ more /\ ReaderModel.reader_run false ReaderModel.reader_init rin = Ok (st, ds) /\
    flats (events P ds) = out1 ++ out2 /\ lrun (live_start rd0) chs = ((e, pol), ltr) /\ taken ltr = wrap out1 /\
    emitted 2 ltr = concat (x_batches x) ++ late /\
    (x_open x = false -> more = [] /\ out2 = [] /\ late = [] /\ finished e).
Proof.
  intros H Ex. pose proof (app_safe _ _ _ _ _ _ _ _ _ _ _ _ _ _ cap fconf acts0 rs Hacts Hsane _ _ H) as C.
  destruct (snapshot _ _ _ _ _ _ _ _ _ _ _ _ _ _ cap fconf acts0 rs Hacts _ _ H C) as (k & K).
  destruct k as [done l rs' pc rd f rin ds [e pol] chs ltr x' es].
  destruct K as (E0 & (Ea & Nw) & Ers & D1 & D2 & C1 & E1 & (q1 & Q1 & Q1') & Er & C2 & F1 & E2 & Hl & Hb & (out & q & Ht & Hq & Eo) & C3 & F2 & E3 & Exx & (qx & Hqx & Hqx') & F3).
  rewrite E3 in Ex. injection Ex as ->. rewrite hall_off in Eo.
  destruct (ExportFacts.batching buffer xstart es) as [B1 _]. rewrite <- Exx in B1.
  assert (Ers' : rs = rin ++ (r_hand pc ++ q1) ++ rs') by (rewrite Ers, Q1, <- !app_assoc; reflexivity).
  destruct (x_open x) eqn:Hx.
  - exists rin, ((r_hand pc ++ q1) ++ rs'), rd, ds, out, (q ++ r_pend pc), chs, e, pol, ltr, (x_recs x ++ qx).
    split; [exact Ers'|]. split; [exact Er|]. split; [symmetry; exact Eo|]. split; [exact Hl|]. split; [exact Ht|]. split; [|discriminate].
    rewrite Hqx, <- B1. now rewrite <- app_assoc.
  - edestruct (eng_state clk ipstr X Mp pmatch ord fuel ah rd0 buffer) as (Px & Np & Cx & Mx & _ & Eof & _); [exact Hl|].
    destruct (F3 eq_refl) as [G1 G2]. apply C3 in G2. pose proof (closed_two _ _ Cx G2) as In2.
    destruct Mx as [Mx|[_ Mx]]; [rewrite Mx in In2; destruct In2|].
    assert (Ie : In LEof ltr) by (apply Eof; destruct Mx as [-> | -> ]; reflexivity).
    destruct (F2 Ie) as [G3 G4]. rewrite C2 in G4. destruct pc; try discriminate. destruct (F1 I) as [G5 G6]. rewrite C1 in G6. destruct (D1 G6) as [-> Hlw].
    rewrite G5 in Q1'. destruct q1; [|discriminate]. rewrite G3 in Hq. destruct q; [|discriminate]. rewrite G1 in Hqx'. destruct qx; [|discriminate].
    destruct (ends _ _ _ _ Hl Mx) as (chs' & e' & ltr' & Hl' & Fi & T1 & T2).
    exists rin, [], rd, ds, out, [], chs', e', pol, ltr', [].
    split; [exact Ers'|]. split; [exact Er|]. split; [symmetry; exact Eo|]. split; [exact Hl'|]. split; [congruence|]. split; [|auto].
    rewrite T2, Hqx, <- B1. now rewrite !app_nil_r.
Qed.

(** What the engine of [rd0] makes of the records it takes in. *)
Variables (h : host) (conf : gomap cval).
Hypothesis Hfix : (exists d, policies_in conf d) /\ monitor_is conf NoneType \/ no_policies conf.
Hypothesis Hinit : InitModel.init (sf_ops X Mp) pmatch ord fuel h conf = Ok (Some rd0).
Notation g := (engine_work X Mp ah rd0).
Lemma fixed_start : (exists p, rd_pi rd0 = Some p /\ pool_start rd0 = init_static conc p) \/ (rd_pi rd0 = None /\ pool_start rd0 = init_bypass).
Proof.
  pose proof Hinit as Hi. destruct Hfix as [[(d & Hd) Hm]|Hn].
  - left. destruct (proj1 (init_iff _ _ _ _ h conf d rd0 Hd) Hi) as (p & C & _ & [[_ E]|(Ml & _ & _)]).
    + exists p. rewrite E. auto.
    + pose proof (word_option_fun _ _ _ _ _ _ _ monitor_fun Hm Ml). discriminate.
  - right. destruct (init_no_policies (sf_ops X Mp) pmatch ord fuel h conf Hn) as [H1 H2]. destruct (conf_parts conf) as (_ & _ & _ & Hm & _).
    destruct (c_mode (fst (create_config conf))); [rewrite (H1 Hm) in Hi; injection Hi as Er; rewrite <- Er; auto|]. rewrite (H2 Hm) in Hi. discriminate.
Qed.
Lemma g_some p : rd_pi rd0 = Some p -> forall l, flat_map g l = flat_map (fun r => outs (snd (work (sf_applicable X Mp) sf_add ah (c_mode (rd_conf rd0)) (fst p) (snd p) r))) l.
Proof. intros E l. apply flat_map_ext. intros r. unfold engine_work. rewrite E. reflexivity. Qed.
Lemma g_none : rd_pi rd0 = None -> forall l, flat_map g l = l.
Proof. intros E l. unfold engine_work. rewrite E. induction l as [|r l IH]; [reflexivity|]. cbn. now f_equal. Qed.
Lemma engine_all chs e pol ltr : lrun (live_start rd0) chs = ((e, pol), ltr) -> finished e -> Permutation (emitted 2 ltr) (flat_map g (taken ltr)).
Proof.
  intros Lr Fi. unfold live_start in Lr. destruct (live_projects _ _ _ _ _ _ _ _ _ _ _ _ _ _ Lr) as (cs & _ & _ & Hr & _).
  destruct fixed_start as [([fs rl] & E & Es)|[E Es]]; rewrite Es in Hr.
  - rewrite (g_some _ E). exact (pool_engine _ _ _ _ _ _ nd_two _ _ _ _ _ Hr Fi 2 (or_introl eq_refl)).
  - rewrite (g_none E). destruct (pool_bypass _ _ _ nd_two _ _ _ Hr) as (Q & _). destruct (Q 2 (or_introl eq_refl)) as (rest & Q1 & _ & Q2).
    assert (Rt : In LReturn ltr).
    { apply PoolFacts.run_reach in Hr. apply (PoolFacts2.ax_ret _ _ (PoolFacts2.aux_reach _ _ _ _ _ _ PoolFacts2.aux_bypass Hr)). rewrite Fi. split; [reflexivity|discriminate]. }
    rewrite (Q2 Rt), app_nil_r in Q1. rewrite Q1. apply Permutation_refl.
Qed.
Lemma engine_part chs e pol ltr : lrun (live_start rd0) chs = ((e, pol), ltr) -> incl (emitted 2 ltr) (flat_map g (taken ltr)).
Proof.
  intros Lr. unfold live_start in Lr. destruct (live_projects _ _ _ _ _ _ _ _ _ _ _ _ _ _ Lr) as (cs & _ & _ & Hr & _).
  destruct fixed_start as [(p & E & Es)|[E Es]].
  - rewrite (g_some _ E). destruct Hfix as [[(d & Hd) Hm]|Hn].
    + destruct (static_moment (sf_ops X Mp) pmatch ord fuel (sf_applicable X Mp) sf_add ah (c_mode (rd_conf rd0)) conf (fun _ => True)
        (fun h' q => create_interpreter (sf_ops X Mp) pmatch ord fuel h' (fst (create_config conf)) = Ok (Some q))
        (fun q r o => o = outs (snd (work (sf_applicable X Mp) sf_add ah (c_mode (rd_conf rd0)) (fst q) (snd q) r)))) with (h := h) (d := d) (outCh := [2]) (rd := rd0) (cs := cs) (s := e) (tr := ltr)
        as (q & Hq & Q); try assumption; try exact I; try exact nd_two.
      { intros h' q _ Hq. exists q. split; [exact Hq|reflexivity]. }
      destruct (Q 2 (or_introl eq_refl)) as (os & rest & F & Pe & _).
      assert (q = p).
      { pose proof Hinit as Hi. destruct (proj1 (init_iff _ _ _ _ h conf d rd0 Hd) Hi) as (p' & C & _ & [[_ E']|(_ & _ & E')]); rewrite E' in E; cbn in E; injection E as <-; rewrite C in Hq; injection Hq as <-; reflexivity. }
      subst q. intros r Hr'. rewrite flat_map_concat_map.
      assert (Eo : os = map (fun r0 => outs (snd (work (sf_applicable X Mp) sf_add ah (c_mode (rd_conf rd0)) (fst p) (snd p) r0))) (taken ltr)).
      { exact (f2_map _ _ _ F). }
      rewrite <- Eo. apply (Permutation_in _ (Permutation_sym Pe)), in_or_app. now left.
    + pose proof Hinit as Hi. destruct (init_no_policies (sf_ops X Mp) pmatch ord fuel h conf Hn) as [H1 H2]. destruct (conf_parts conf) as (_ & _ & _ & Hm & _).
      destruct (c_mode (fst (create_config conf))); [rewrite (H1 Hm) in Hi; injection Hi as Er; rewrite <- Er in E; discriminate|]. rewrite (H2 Hm) in Hi. discriminate.
  - rewrite (g_none E). rewrite Es in Hr. destruct (bypass_moment _ _ _ nd_two _ _ _ Hr 2 (or_introl eq_refl)) as (rest & Q1 & _). rewrite Q1. intros r Hr'. apply in_or_app. now left.
Qed.
(** At any moment the batches are part of what the engine makes of the events of a first part of the stream; at the end, all of it. *)
Lemma life_exact tr s x : cr tr s -> c_st s 3 = DExp x ->
  exists rin more st ds, rs = rin ++ more /\ ReaderModel.reader_run false ReaderModel.reader_init rin = Ok (st, ds) /\
    incl (concat (x_batches x)) (flat_map g (wrap (flats (events P ds)))) /\
    (x_open x = false -> more = [] /\ Permutation (concat (x_batches x)) (flat_map g (wrap (flats (events P ds))))).
Proof.
  intros H Ex. destruct (exact_moment tr s x H Ex) as (rin & more & st & ds & out1 & out2 & chs & e & pol & ltr & late & Er & Rr & Fo & Lr & Tk & Em & Fi).
  exists rin, more, st, ds. split; [exact Er|]. split; [exact Rr|]. rewrite Fo, map_app, flat_map_app. split.
  - intros r Hr. apply in_or_app. left. rewrite <- Tk. apply (engine_part _ _ _ _ Lr). rewrite Em. apply in_or_app. now left.
  - intros Ho. destruct (Fi Ho) as (-> & -> & -> & Fe). split; [reflexivity|]. cbn [map flat_map]. rewrite !app_nil_r in *. rewrite <- Tk, <- Em. exact (engine_all _ _ _ _ Lr Fe).
Qed.
End F.

(** ** The index *)
Lemma nodup_id (l : list ecsdoc) d d' : NoDup (map e_id l) -> In d l -> In d' l -> e_id d = e_id d' -> d = d'.
Proof.
  intros N H H' Q. pose proof (find_nodup l d N H) as F. pose proof (find_nodup l d' N H') as F'. rewrite Q in F. rewrite F in F'. now injection F'.
Qed.
Lemma export_facts ix l docs lost : incl l docs -> (forall d, In d docs -> In d lost \/ In d l) ->
  only_from ix docs (es_export ix l) /\
  (forall d, In d docs -> In d lost \/ represented ix docs (es_export ix l) d) /\
  (NoDup (map e_id docs) -> forall d, In d docs -> mget (e_id d) ix = None -> In d lost \/ mget (e_id d) (es_export ix l) = Some d).
Proof.
  intros S A. split; [|split].
  - split; intros id d; rewrite es_mget; destruct (mget id ix); auto; try discriminate. intros F. apply find_id in F. destruct F as [F1 F2]. right. auto.
  - intros d Hd. destruct (A d Hd) as [Hl|Hl]; [now left|right]. unfold represented. rewrite es_mget.
    destruct (mget (e_id d) ix) as [d0|] eqn:G; [exists d0; auto|]. destruct (find (fun x => seqb (e_id x) (e_id d)) l) as [d0|] eqn:F.
    + exists d0. apply find_id in F. destruct F as [F1 F2]. auto 6.
    + exfalso. apply (find_none _ _ F) in Hl. rewrite seqb_refl in Hl. discriminate.
  - intros N d Hd G. destruct (A d Hd) as [Hl|Hl]; [now left|right]. rewrite es_mget, G. destruct (find (fun x => seqb (e_id x) (e_id d)) l) as [d0|] eqn:F.
    + apply find_id in F. destruct F as [F1 F2]. f_equal. symmetry. apply (nodup_id docs); auto.
    + exfalso. apply (find_none _ _ F) in Hl. rewrite seqb_refl in Hl. discriminate.
Qed.

Section I.
Variables (P : payloads) (ipstr : Z -> string) (jsonsvcs : list service -> string) (hash : flatrec -> Z).
Variables (X : sfgo_fns) (Mp : gomap fieldmap) (pmatch : string -> string -> bool) (ord : srule -> list nat -> list (string * search)) (fuel : nat).
Variable ah : ahandler sfrec.
Variable rd : ready sfrec.
Variable fconf : gomap string.
Variables (E : ecs_fns) (version ecsversion : string).
Variables (h : host) (conf : gomap cval).
Hypothesis Hoff : filter_config fconf = None.
Hypothesis Hfix : (exists d, policies_in conf d) /\ monitor_is conf NoneType \/ no_policies conf.
Hypothesis Hinit : InitModel.init (sf_ops X Mp) pmatch ord fuel h conf = Ok (Some rd).
Notation attempted := (attempted P ipstr jsonsvcs hash X Mp pmatch ord fuel ah rd fconf).
Notation indexed := (indexed P ipstr jsonsvcs hash X Mp pmatch ord fuel ah rd fconf E version ecsversion).
Notation docs_of l := (ecs_docs X E version ecsversion l).
Notation made ds := (flat_map (engine_work X Mp ah rd) (map (fun fr => (fr, ctx_new)) (map (fun xe : fctx * fevent => flatten ipstr jsonsvcs (fst xe) (snd xe)) (events P ds)))).

Lemma made_app a b : made (a ++ b) = made a ++ made b.
Proof. rewrite events_app, !map_app, flat_map_app. reflexivity. Qed.
Lemma docs_incl a b : incl a b -> incl (docs_of a) (docs_of b).
Proof. intros H d Hd. unfold ecs_docs in *. apply in_flat_map in Hd as (r & Hr & Hd). apply in_flat_map. exists r. auto. Qed.
Lemma attempted_part some more st ds a : SpecReader.Sane false (some ++ more) -> ReaderModel.reader_run false ReaderModel.reader_init (some ++ more) = Ok (st, ds) ->
  attempted some a -> incl (concat (x_batches (a_exp a))) (made ds).
Proof.
  intros Sn Rr (A & H & Ex).
  destruct (life_exact P (a_clk a) ipstr jsonsvcs hash X Mp pmatch ord fuel ah rd (a_buffer a) (a_start a) (a_cap a) fconf (a_acts a) some A (sane_first _ _ Sn) Hoff h conf Hfix Hinit (a_trace a) (a_end a) (a_exp a) H Ex)
    as (rin & m2 & st1 & ds1 & Es & R1 & I1 & _).
  rewrite Es, <- app_assoc in Rr. destruct (reader_prefix _ _ _ _ Rr) as (st2 & d1 & d2 & R2 & ->). rewrite R1 in R2. injection R2 as <- <-.
  rewrite made_app. apply incl_appl. exact I1.
Qed.
Lemma indexed_from rs st ds ix ix1 : SpecReader.Sane false rs -> ReaderModel.reader_run false ReaderModel.reader_init rs = Ok (st, ds) -> indexed rs ix ix1 ->
  exists l, incl l (docs_of (made ds)) /\ ix1 = es_export ix l.
Proof.
  intros Sn Rr H. induction H as [|ix1 a some more lost ix2 H (l & Hl & -> ) Es A B]; [exists []; split; [intros d []|reflexivity]|].
  destruct (batches_arrived _ _ _ _ B) as (arr & Pm & ->). rewrite docs_concat in Pm. exists (l ++ arr). split; [|rewrite es_app; reflexivity].
  apply incl_app; [exact Hl|]. intros d Hd. rewrite Es in Sn, Rr.
  apply (docs_incl _ _ (attempted_part some more st ds a Sn Rr A)). apply (Permutation_in _ (Permutation_sym Pm)), in_or_app. now left.
Qed.
Lemma rerun_index rs a ix ix1 lost ix2 : SpecReader.Sane false rs -> attempted rs a -> x_open (a_exp a) = false -> indexed rs ix ix1 ->
  es_batches ix1 (map (ecs_docs X E version ecsversion) (x_batches (a_exp a))) lost ix2 ->
  let docs := docs_of (concat (x_batches (a_exp a))) in
  only_from ix docs ix2 /\ (forall d, In d docs -> In d lost \/ represented ix docs ix2 d) /\
  (NoDup (map e_id docs) -> forall d, In d docs -> mget (e_id d) ix = None -> In d lost \/ mget (e_id d) ix2 = Some d).
Proof.
  intros Sn (A & H & Ex) Ho Hx B docs.
  destruct (life_exact P (a_clk a) ipstr jsonsvcs hash X Mp pmatch ord fuel ah rd (a_buffer a) (a_start a) (a_cap a) fconf (a_acts a) rs A Sn Hoff h conf Hfix Hinit (a_trace a) (a_end a) (a_exp a) H Ex)
    as (rin & more & st & ds & Es & R & _ & Al). destruct (Al Ho) as [-> Pm]. rewrite app_nil_r in Es. subst rin.
  destruct (indexed_from rs st ds ix ix1 Sn R Hx) as (l & Hl & ->). destruct (batches_arrived _ _ _ _ B) as (arr & Pb & ->). rewrite docs_concat in Pb. fold docs in Pb.
  rewrite <- es_app. apply export_facts.
  - apply incl_app.
    + intros d Hd. apply (docs_incl (made ds)); [|exact (Hl d Hd)]. intros r Hr. exact (Permutation_in _ (Permutation_sym Pm) Hr).
    + intros d Hd. apply (Permutation_in _ (Permutation_sym Pb)), in_or_app. now left.
  - intros d Hd. apply (Permutation_in _ Pb), in_app_or in Hd as [Hd|Hd]; [right; apply in_or_app; now right|now left].
Qed.
End I.

(** ** The file *)
Lemma stake_split k a b : stake k (a ++ b) = if Nat.leb (S (slen a)) k then (a ++ stake (k - slen a) b)%string else stake k a.
Proof.
  revert k. induction a as [|c a IH]; intros k.
  - cbn [append slen String.length]. rewrite Nat.sub_0_r. destruct k; reflexivity.
  - destruct k as [|k]; [reflexivity|]. change (slen (String c a)) with (S (slen a)). cbn [append stake Nat.leb Nat.sub]. rewrite IH. change (Nat.leb (S (slen a)) k) with (match k with 0 => false | S m => Nat.leb (slen a) m end). destruct k; [reflexivity|]. destruct (Nat.leb (slen a) k); [|reflexivity]. reflexivity.
Qed.
Lemma prefix_of_lines (ls : list string) : forall k, exists n j, n <= length ls /\
  stake k (String.concat "" (map (fun l => (l ++ nl)%string) ls)) = (String.concat "" (map (fun l => (l ++ nl)%string) (firstn n ls)) ++ match skipn n ls with [] => "" | l :: _ => stake j l end)%string.
Proof.
  induction ls as [|l ls IH]; intros k; [exists 0, 0; split; [apply le_n|destruct k; reflexivity]|]. cbn [map]. rewrite ExportFacts.concat_cons, sapp_assoc, stake_split.
  destruct (Nat.leb (S (slen l)) k) eqn:Q.
  - apply Nat.leb_le in Q. destruct (k - slen l) as [|m] eqn:Em; [lia|]. destruct (IH m) as (n & j & Hn & E). exists (S n), j. split; [cbn; lia|].
    cbn [firstn map skipn]. rewrite ExportFacts.concat_cons, !sapp_assoc. f_equal. cbn [append nl stake]. now rewrite E.
  - exists 0, k. split; [lia|]. reflexivity.
Qed.
