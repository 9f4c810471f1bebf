(** * EvalOtelFacts: proofs about evaluation with panics on logs. *)
From Coq Require Import Lia Permutation.
From Verif Require Import GoBase GoFacts Predicates PolicyFacts SpecStrings FalcoModel SpecFalco FalcoFacts FalcoFacts2 FalcoFacts3 SigmaModel SpecSigma SigmaFacts
  EngineModel SpecEngine EngineFacts EngineFacts2 OtelModel SpecOtel OtelFacts OtelEngine PoolModel SpecPool PoolFacts4 InitModel SpecInit SpecOtelEngine OtelEngineFacts EvalModel SpecEval EvalFacts EvalOtel SpecEvalOtel.

Section O.
Variable D : Type.
Variable parse_float : string -> option D.
Variables deq dlt dle : D -> D -> bool.
Notation logs := (logs D).
Notation t_x := (o_exists D).
Notation t_c := (o_compare D parse_float deq dlt dle).
Notation t_a := (o_foldany D parse_float deq dlt dle).
Notation test_run := (test_run D parse_float deq dlt dle).
Notation in_run := (in_run D parse_float deq dlt dle).
Notation t_run := (t_run D parse_float deq dlt dle).
Notation e_run := (e_run D parse_float deq dlt dle).

(** ** The tests *)
Lemma compare_run r k x op : test_run r k op x (t_c k x op r) /\ decided (t_c k x op r).
Proof.
  unfold o_compare. rewrite all_attrs_spec. destruct (l_resource D r) as [a|] eqn:E; cbn [rbind].
  - assert (El : attributes D a (l_scopes D r) = log_attrs D r) by (unfold log_attrs; rewrite E; reflexivity).
    rewrite El.
    destruct (helper_spec D parse_float deq dlt dle k x op (log_attrs D r)) as (P & Q & [R|(b & R)]); rewrite R.
    + split; [|now left]. apply P in R as (v & A & B). eapply ts_crash; eauto. congruence.
    + split; [|right; eauto]. apply ts_answer; [congruence| |exact (Q b R)].
      intros v A B. assert (X : compare_helper D parse_float deq dlt dle k x op (log_attrs D r) = Panic) by (apply P; eauto). congruence.
  - split; [now constructor|now left].
Qed.
Lemma exists_run_ok r k : exists_run D r k (t_x k r) /\ decided (t_x k r).
Proof.
  destruct (l_resource D r) as [a|] eqn:E.
  - destruct (exists_spec D k r a E) as (b & -> & H). split; [|right; eauto]. apply xs_key; [congruence|].
    unfold log_attrs. rewrite E. exact H.
  - unfold o_exists. rewrite all_attrs_spec, E. split; [now constructor|now left].
Qed.
Lemma foldany_run r k ys op : in_run r k op ys (t_a k ys op r) /\ decided (t_a k ys op r).
Proof.
  unfold o_foldany. rewrite all_attrs_spec. destruct (l_resource D r) as [a|] eqn:E; cbn [rbind]; [|split; [now constructor|now left]].
  assert (H : any_run (fun y o => test_run r k op y o) ys (fold_any D parse_float deq dlt dle k ys op (attributes D a (l_scopes D r))) /\
              decided (fold_any D parse_float deq dlt dle k ys op (attributes D a (l_scopes D r)))).
  { induction ys as [|y ys [IH DI]]; cbn [fold_any]; [split; [constructor|right; eauto]|].
    destruct (compare_run r k y op) as [T Dc]. unfold o_compare in T, Dc. rewrite all_attrs_spec, E in T, Dc. cbn [rbind] in T, Dc.
    destruct Dc as [X|[[|] X]]; rewrite X in *; cbn [rbind].
    - split; [now constructor|now left].
    - split; [now constructor|right; eauto].
    - split; [now apply any_next|exact DI]. }
  destruct H as [H1 H2]. split; [|exact H2]. apply is_items; [congruence|exact H1].
Qed.

(** ** Conditions *)
Section Cond.
Variable M : gomap expr.
Variable L : gomap (list string).
Variable macros : string -> option expr.
Variable lists : string -> option (list string).
Hypothesis HM : forall x, mget x M = macros x.
Hypothesis HL : forall x, mget x L = lists x.
Hypothesis HP : forall x e, macros x = Some e -> expr_plain e = true.
Variable r : logs.
Lemma pf_expr_outcome (vt : term -> res (pcrit logs)) (run : term -> res bool -> Prop) e c :
  (forall cj t k, In cj e -> In t cj -> vt t = Ok k -> run t (k r) /\ decided (k r)) ->
  pf_expr_with vt e = Ok c -> any_run (all_run run) e (c r) /\ decided (c r).
Proof.
  intros H E. unfold pf_expr_with in E. apply rbind_ok in E as (ors & Eo & E). injection E as <-.
  apply any_outcome. eapply rmap_outcome; [exact Eo|]. intros cj k Hi Ek. cbn beta in Ek. apply rbind_ok in Ek as (cs & Ec & Ek). injection Ek as <-.
  apply all_outcome. eapply rmap_outcome; [exact Ec|]. intros t k Ht. exact (H cj t k Hi Ht).
Qed.
Lemma pf_term_outcome n : forall t c, term_plain t = true -> pf_term t_x t_c t_a n M L t = Ok c -> t_run macros lists r t (c r) /\ decided (c r).
Proof.
  induction n as [|n IH]; intros t c Hp; [discriminate|].
  assert (HE : forall e k, expr_plain e = true -> pf_expr_with (pf_term t_x t_c t_a n M L) e = Ok k -> any_run (all_run (t_run macros lists r)) e (k r) /\ decided (k r)).
  { intros e k Hpe. apply pf_expr_outcome. intros cj t0 k0 Hi Ht. apply IH. unfold expr_plain in Hpe. rewrite forallb_forall in Hpe.
    specialize (Hpe cj Hi). rewrite forallb_forall in Hpe. auto. }
  destruct t as [x|t|a|l op rr|l args|l args|e]; simpl in Hp |- *.
  - rewrite HM. destruct (macros x) as [e|] eqn:E.
    + intros H. destruct (HE e c (HP _ _ E) H). split; [eapply rn_macro; eauto|assumption].
    + intros [= <-]. split; [now constructor|right; exists false; reflexivity].
  - intros H. apply rbind_ok in H as (k & Hk & H). injection H as <-. destruct (IH _ _ Hp Hk) as [T Dk].
    unfold p_not, rbind. destruct Dk as [X|[b X]]; rewrite X in *; (split; [now constructor|unfold decided; eauto]).
  - intros [= <-]. destruct (exists_run_ok r a). split; [now constructor|assumption].
  - intros [= <-]. destruct op; simpl; try (destruct (compare_run r l rr OpEq) as [A B] || idtac);
      try (match goal with |- context [t_c l rr ?o] => destruct (compare_run r l rr o) as [A' B'] end; split; [constructor; [discriminate|exact A']|exact B']).
    unfold p_not, rbind. destruct (compare_run r l rr OpEq) as [A' B']. destruct B' as [X|[b X]]; rewrite X in *; (split; [now constructor|unfold decided; eauto]).
  - intros H. apply rbind_ok in H as (ys & Hy & H). injection H as <-. apply (atoms_sound L lists HL) in Hy. destruct (foldany_run r l ys OpEq).
    split; [eapply rn_in; [apply arg_items_plain|]; eassumption|assumption].
  - intros H. apply rbind_ok in H as (ys & Hy & H). injection H as <-. apply (atoms_sound L lists HL) in Hy. destruct (foldany_run r l ys OpContains).
    split; [eapply rn_pmatch; [apply arg_items_plain|]; eassumption|assumption].
  - intros H. destruct (HE e c Hp H). split; [now constructor|assumption].
Qed.
Lemma pf_expr_sound n e c : expr_plain e = true -> pf_expr t_x t_c t_a n M L e = Ok c -> e_run macros lists r e (c r) /\ decided (c r).
Proof.
  intros Hp. apply pf_expr_outcome. intros cj t k Hi Ht. apply pf_term_outcome. unfold expr_plain in Hp. rewrite forallb_forall in Hp.
  specialize (Hp cj Hi). rewrite forallb_forall in Hp. auto.
Qed.
End Cond.

(** ** Policies *)
Notation pf_walk := (pf_walk t_x t_c t_a).
Notation pf_files := (pf_files t_x t_c t_a).
Notation pf_policy_step := (pf_policy_step t_x t_c t_a).
Notation pf_expr := (pf_expr t_x t_c t_a).
Definition p_rule_of (od : occurrence * ruledecl) (pr : prule logs) : Prop :=
  let (o, d) := od in
  r_name (pr_rule pr) = rd_name d /\ (r_enabled (pr_rule pr) = false <-> rule_off d) /\
  (exists ts, listed OTags (rd_opts d) ts /\ (r_tags (pr_rule pr) = [] /\ ts = [] \/ r_tags (pr_rule pr) = [TagList ts])) /\
  forall r, e_run (oc_macros o) (oc_lists o) r (rd_cond d) (pr_cond pr r) /\ decided (pr_cond pr r).
Definition p_filter_of (od : occurrence * filterdecl) (pf : pfilter logs) : Prop :=
  let (o, d) := od in
  (f_enabled (pf_filter pf) = false <-> filter_off d) /\
  forall r, e_run (oc_macros o) (oc_lists o) r (fd_cond d) (pf_cond pf r) /\ decided (pf_cond pf r).
Definition penv_is (st : pstate logs) (ms : string -> option expr) (ls : string -> option (list string)) : Prop :=
  (forall x, mget x (ps_macros st) = ms x) /\ (forall x, mget x (ps_lists st) = ls x).
Lemma pf_def_step_env st d ms ls : penv_is st ms ls ->
  penv_is (pf_def_step st d) (fun x => orelse (last_def macro_def x [d]) (ms x)) (fun x => orelse (last_def list_def x [d]) (ls x)).
Proof.
  intros [Hm Hl]. destruct d; simpl; split; intros y; simpl; auto.
  - unfold mset. simpl. destruct (seqb y x); simpl; auto.
  - unfold mset. simpl. destruct (seqb y x); simpl; auto.
Qed.
Lemma pf_def_fold_env ds : forall st ms ls, penv_is st ms ls ->
  penv_is (fold_left pf_def_step ds st) (fun x => orelse (last_def macro_def x ds) (ms x)) (fun x => orelse (last_def list_def x ds) (ls x)).
Proof.
  induction ds as [|d ds IH]; intros st ms ls He; simpl.
  - destruct He; split; auto.
  - destruct (IH _ _ _ (pf_def_step_env st d ms ls He)) as [Hm Hl]. split; intros x.
    + rewrite Hm. simpl. destruct (last_def macro_def x ds); reflexivity.
    + rewrite Hl. simpl. destruct (last_def list_def x ds); reflexivity.
Qed.
Lemma pf_def_fold_rules ds : forall st : pstate logs, ps_rules (fold_left pf_def_step ds st) = ps_rules st /\ ps_filters (fold_left pf_def_step ds st) = ps_filters st.
Proof.
  induction ds as [|d ds IH]; intros st; simpl; auto.
  destruct (IH (pf_def_step st d)) as [-> ->]. destruct d; auto.
Qed.
Lemma pf_step_env n st st' d ms ls : penv_is st ms ls -> pf_policy_step n st d = Ok st' ->
  penv_is st' (fun x => orelse (last_def macro_def x [d]) (ms x)) (fun x => orelse (last_def list_def x [d]) (ls x)).
Proof.
  intros He. destruct d; simpl.
  - destruct (pf_expr n _ _ _); simpl; try discriminate. intros [= <-]. exact He.
  - destruct (pf_expr n _ _ _); simpl; try discriminate. intros [= <-]. exact He.
  - intros [= <-]. apply (pf_def_step_env st (DMacro x e append)); auto.
  - intros [= <-]. apply (pf_def_step_env st (DList x it)); auto.
  - intros [= <-]. exact He.
Qed.
Lemma env_good earlier pre whole : (forall d, In d (earlier ++ whole) -> decl_plain d = true) -> (forall d, In d pre -> In d whole) ->
  good_env (visible macro_def earlier pre whole).
Proof.
  intros Hpl Hw x e. unfold visible, orelse.
  assert (G1 : good_env (fun x => last_def macro_def x pre)) by (apply last_def_plain; intros; apply Hpl; rewrite in_app_iff; auto).
  assert (G2 : good_env (fun x => last_def macro_def x whole)) by (apply last_def_plain; intros; apply Hpl; rewrite in_app_iff; auto).
  assert (G3 : good_env (fun x => last_def macro_def x earlier)) by (apply last_def_plain; intros; apply Hpl; rewrite in_app_iff; auto).
  specialize (G1 x e); specialize (G2 x e); specialize (G3 x e); simpl in *.
  destruct (last_def macro_def x pre); auto. destruct (last_def macro_def x whole); auto.
Qed.
Lemma pf_walk_ok n earlier whole ds : forall pre st st',
  (forall d, In d (earlier ++ whole) -> decl_plain d = true) -> whole = pre ++ ds ->
  penv_is st (visible macro_def earlier pre whole) (visible list_def earlier pre whole) ->
  pf_walk n st ds = Ok st' ->
  exists rs fs,
    ps_rules st' = ps_rules st ++ rs /\ ps_filters st' = ps_filters st ++ fs /\
    Forall2 p_rule_of (rule_occs (occs_in earlier pre whole ds)) rs /\
    Forall2 p_filter_of (filter_occs (occs_in earlier pre whole ds)) fs /\
    penv_is st' (visible macro_def earlier whole whole) (visible list_def earlier whole whole).
Proof.
  induction ds as [|d ds IH]; intros pre st st' Hpl Hw He; simpl.
  - intros [= <-]. exists [], []. rewrite !app_nil_r in *. subst whole. split; [reflexivity|]. split; [reflexivity|]. split; [constructor|]. split; [constructor|exact He].
  - intros H. apply rbind_ok in H as (st1 & E & H).
    assert (Hg : good_env (visible macro_def earlier pre whole)).
    { apply env_good; [assumption|]. intros d0 Hd. subst whole. apply in_or_app. now left. }
    assert (He1 : penv_is st1 (visible macro_def earlier (pre ++ [d]) whole) (visible list_def earlier (pre ++ [d]) whole)).
    { destruct (pf_step_env _ _ _ _ _ _ He E) as [K1 K2]. split; intros x.
      - rewrite K1. unfold visible. rewrite last_def_app. destruct (last_def macro_def x [d]); reflexivity.
      - rewrite K2. unfold visible. rewrite last_def_app. destruct (last_def list_def x [d]); reflexivity. }
    destruct (IH (pre ++ [d]) st1 st' Hpl ltac:(rewrite <- app_assoc; auto) He1 H) as (rs & fs & H1 & H2 & H3 & H4 & H5).
    destruct d as [d|d|x e ap|x it|v]; simpl in E |- *.
    + apply rbind_ok in E as (c & Ec & E). injection E as <-. simpl in *.
      eexists (_ :: rs), fs. split; [rewrite H1, <- app_assoc; reflexivity|]. split; [assumption|]. split; [|split; assumption].
      constructor; auto. unfold p_rule_of. cbn [pr_rule pr_cond r_name r_enabled r_tags oc_macros oc_lists oc_earlier oc_pre oc_whole].
      split; [reflexivity|]. split; [apply get_enabled_spec|]. split; [apply get_tags_listed|].
      intros r. destruct He as [Hm Hl]. eapply pf_expr_sound; eauto.
      assert (Hd : decl_plain (DRule d) = true) by (apply Hpl; subst whole; rewrite !in_app_iff; right; right; left; auto). exact Hd.
    + apply rbind_ok in E as (c & Ec & E). injection E as <-. simpl in *.
      eexists rs, (_ :: fs). split; [assumption|]. split; [rewrite H2, <- app_assoc; reflexivity|]. split; [assumption|]. split; [|assumption].
      constructor; auto. unfold p_filter_of. cbn [pf_filter pf_cond f_enabled oc_macros oc_lists oc_earlier oc_pre oc_whole]. split.
      * unfold filter_off. destruct (fd_enabled d) as [s|].
        -- rewrite enabled_flag_off. split; [intros Ho; exists s; auto|]. intros (s' & [= <-] & Ho). exact Ho.
        -- split; [discriminate|]. intros (s' & Hs & _). discriminate.
      * intros r. destruct He as [Hm Hl]. eapply pf_expr_sound; eauto.
        assert (Hd : decl_plain (DFilter d) = true) by (apply Hpl; subst whole; rewrite !in_app_iff; right; right; left; auto). exact Hd.
    + injection E as <-. exists rs, fs. auto.
    + injection E as <-. exists rs, fs. auto.
    + injection E as <-. exists rs, fs. auto.
Qed.
Notation files dss := (map (fun ds : list decl => Some (ds, false)) dss).
Lemma pf_files_ok n : forall dss st st' earlier,
  (forall d, In d earlier -> decl_plain d = true) -> (forall ds d, In ds dss -> In d ds -> decl_plain d = true) ->
  penv_is st (fun x => last_def macro_def x earlier) (fun x => last_def list_def x earlier) ->
  pf_files n st dss = Ok st' ->
  exists rs fl, ps_rules st' = ps_rules st ++ rs /\ ps_filters st' = ps_filters st ++ fl /\
    Forall2 p_rule_of (rule_occs (occs earlier (files dss))) rs /\
    Forall2 p_filter_of (filter_occs (occs earlier (files dss))) fl.
Proof.
  induction dss as [|ds dss IH]; intros st st' earlier Hpe Hpl He; simpl.
  - intros [= <-]. exists [], []. rewrite !app_nil_r. split; [reflexivity|]. split; [reflexivity|]. split; constructor.
  - intros H. apply rbind_ok in H as (st1 & E & H).
    destruct (pf_walk_ok n earlier ds ds [] (fold_left pf_def_step ds st) st1) as (rs & fl & H1 & H2 & H3 & H4 & H5); auto.
    { intros d Hd. apply in_app_iff in Hd as [Hd|Hd]; auto. apply (Hpl ds); [now left|assumption]. }
    { apply (pf_def_fold_env ds st _ _ He). }
    destruct (pf_def_fold_rules ds st) as [R1 R2]. rewrite R1 in H1. rewrite R2 in H2.
    destruct (IH st1 st' (earlier ++ ds)) as (rs' & fl' & K1 & K2 & K3 & K4); auto.
    { intros d Hd. apply in_app_iff in Hd as [Hd|Hd]; auto. apply (Hpl ds); [now left|assumption]. }
    { intros ds' d Hd. apply Hpl. now right. }
    { destruct H5 as [M5 L5]. split; intros x; [rewrite M5|rewrite L5]; apply visible_end. }
    exists (rs ++ rs'), (fl ++ fl'). rewrite rule_occs_app, filter_occs_app.
    split; [rewrite K1, H1, app_assoc; auto|]. split; [rewrite K2, H2, app_assoc; auto|]. split; apply Forall2_app; auto.
Qed.
Lemma pf_compile_ok n dss prs pfs : files_plain (files dss) -> of_compile D parse_float deq dlt dle n dss = Ok (prs, pfs) ->
  Forall2 p_rule_of (rule_occs (declared dss)) prs /\ Forall2 p_filter_of (filter_occs (declared dss)) pfs.
Proof.
  intros Hp H. unfold of_compile, pf_compile in H. apply rbind_ok in H as (st & E & H). injection H as <- <-.
  destruct (pf_files_ok n dss pstate0 st []) as (rs & fl & R1 & R2 & H1 & H2).
  - intros d [].
  - intros ds d Hi Hd. apply (Hp (Some (ds, false)) d); [apply in_map_iff; eauto|exact Hd].
  - split; reflexivity.
  - exact E.
  - rewrite R1, R2. split; assumption.
Qed.

(** ** A worker *)
Variable enum : logs -> rule logs -> list string -> list string.
Hypothesis Henum : forall r ru l, Permutation (enum r ru l) l.
Notation add := (o_add D enum).
Notation regular := (regular D).
Section Turns.
Context {A : Type}.
Variables (run : A -> logs -> res bool -> Prop) (tells : A -> logs -> logs -> Prop) (Q : A -> prule logs -> Prop).
Variable ah : ahandler logs.
Hypothesis Hah : harmless D ah.
Hypothesis Hoff : forall a pr r, Q a pr -> r_enabled (pr_rule pr) = false -> run a r (Ok false).
Hypothesis Hon : forall a pr r, Q a pr -> r_enabled (pr_rule pr) = true -> run a r (pr_cond pr r) /\ decided (pr_cond pr r).
Hypothesis Ht : forall a pr r, Q a pr -> regular r -> tells a r (add r (pr_rule pr)).
Definition shed {X Y} (o : res (X * Y)) : res X := match o with Ok (x, _) => Ok x | Panic => Panic | Fatal => Fatal | NoFuel => NoFuel end.
Lemma actions_keep (ru : rule logs) r : fst (handle_actions ah ru r) = r /\ outs (snd (handle_actions ah ru r)) = [].
Proof.
  unfold handle_actions. revert r. induction (r_actions ru) as [|a l IH]; intros r; [split; reflexivity|]. cbn [run_actions].
  destruct (find_action ah a) as [f|] eqn:E; [|apply IH]. pose proof (Hah a f r E) as H. destruct (f r) as [r1 b]. cbn in H. subst r1.
  specialize (IH r). destruct (run_actions ah l r) as [r2 es]. cbn in *. tauto.
Qed.
Lemma apply_turns l prs : Forall2 Q l prs -> forall r b, regular r ->
  let (es, o) := pc_apply (o_applicable D) add ah prs r b in
  exists fired, turns D run tells l r fired (shed o) /\ outs es = [] /\
    (o = Panic \/ exists r', o = Ok (r', b || match fired with [] => false | _ => true end)).
Proof.
  induction 1 as [|a pr l prs Ha F IH]; intros r b Hr; cbn [pc_apply].
  - exists []. split; [constructor|]. split; [reflexivity|]. right. exists r. rewrite orb_false_r. reflexivity.
  - unfold o_applicable at 1. rewrite andb_true_r. destruct (r_enabled (pr_rule pr)) eqn:En.
    + destruct (Hon a pr r Ha En) as [Hrun [X|[[|] X]]]; rewrite X in *.
      * exists []. split; [now constructor|]. split; [reflexivity|now left].
      * pose proof (actions_keep (pr_rule pr) (add r (pr_rule pr))) as [H1 H2].
        destruct (handle_actions ah (pr_rule pr) (add r (pr_rule pr))) as [r2 es]. cbn [fst snd] in H1, H2. subst r2.
        destruct (add_noted D parse_float enum Henum r (pr_rule pr) Hr) as (_ & _ & Hr' & _).
        specialize (IH (add r (pr_rule pr)) true Hr').
        destruct (pc_apply (o_applicable D) add ah prs (add r (pr_rule pr)) true) as [es' o]. destruct IH as (fired & I1 & I2 & I3).
        exists (a :: fired). split; [econstructor; [exact Hrun|apply Ht; eassumption|exact I1]|].
        change (outs (FAnnot (pr_rule pr) :: es ++ es')) with (outs (es ++ es')). rewrite outs_app, H2, I2. split; [reflexivity|].
        destruct I3 as [I3|(r' & I3)]; [now left|]. right. exists r'. rewrite I3, orb_true_r. reflexivity.
      * specialize (IH r b Hr). destruct (pc_apply (o_applicable D) add ah prs r b) as [es' o]. destruct IH as (fired & I1 & I2 & I3).
        exists fired. split; [now apply tn_skip|]. auto.
    + specialize (IH r b Hr). destruct (pc_apply (o_applicable D) add ah prs r b) as [es' o]. destruct IH as (fired & I1 & I2 & I3).
      exists fired. split; [apply tn_skip; [eapply Hoff; eassumption|exact I1]|]. auto.
Qed.
Definition passed {X} (es : list (effect X)) (o : res X) : res (list X) := match o with Ok _ => Ok (outs es) | Panic => Panic | Fatal => Fatal | NoFuel => NoFuel end.
Lemma work_turns {F} (drops : list F) (frun : F -> logs -> res bool -> Prop) l prs pfs m r : Forall2 Q l prs -> regular r ->
  any_run (fun f o => frun f r o) drops (pf_filters pfs r) -> decided (pf_filters pfs r) ->
  let (es, o) := op_work D enum ah m pfs prs r in p_outcome D drops frun l run tells m r (passed es o).
Proof.
  intros Fl Hr Hf Df. unfold op_work, pf_work. destruct Df as [X|[[|] X]]; rewrite X in *.
  - now apply po_filter_crash.
  - now apply po_dropped.
  - unfold pc_work. pose proof (apply_turns l prs Fl r (match m with EnrichMode => true | AlertMode => false end) Hr) as T.
    destruct (pc_apply (o_applicable D) add ah prs r _) as [es o]. destruct T as (fired & T1 & T2 & [->|(r' & ->)]).
    + eapply po_crash; eauto.
    + cbn [shed] in T1. destruct m; cbn [orb passed].
      * rewrite outs_app, T2. cbn. eapply po_passed; eauto.
      * destruct fired as [|a fired].
        -- rewrite T2. eapply po_silent; eauto.
        -- rewrite outs_app, T2. cbn. eapply po_passed; [exact Hf|exact T1|]. right. discriminate.
Qed.
End Turns.

(** ** Falco policies *)
Lemma p_told od pr r : p_rule_of od pr -> regular r -> told D od r (add r (pr_rule pr)).
Proof.
  intros H Hr. destruct od as [o d]. destruct H as (Hn & _ & (ts0 & Hl & Ht) & _). set (ru := pr_rule pr) in *.
  destruct (add_noted D parse_float enum Henum r ru Hr) as (ts & N & _ & Pm). exists ts0, ts. cbn [snd]. rewrite <- Hn. split; [assumption|].
  split; [eapply Permutation_NoDup; [symmetry; exact Pm|apply tag_set_nodup]|]. split; [|exact N].
  intros t. split.
  - intros Hi. apply (Permutation_in _ Pm), tag_set_spec in Hi as (r0 & tg & [<-|[]] & H1 & H2). cbn [snd] in H1.
    destruct Ht as [[Ht ->]|Ht]; rewrite Ht in H1; [destruct H1|]. destruct H1 as [<-|[]]. exact H2.
  - intros Hi. apply (Permutation_in _ (Permutation_sym Pm)), tag_set_spec. exists (r_name ru, r_tags ru). destruct Ht as [[_ ->]|Ht]; [destruct Hi|].
    exists (TagList ts0). rewrite Ht. cbn. auto.
Qed.
Notation rule_run := (rule_run D parse_float deq dlt dle).
Notation filter_run := (filter_run D parse_float deq dlt dle).
Lemma filters_run ods pfs r : Forall2 p_filter_of ods pfs ->
  any_run (fun f o => filter_run f r o) ods (pf_filters pfs r) /\ decided (pf_filters pfs r).
Proof.
  induction 1 as [|[o d] pf ods pfs [Ho Hc] F [IH DI]]; cbn [pf_filters]; [split; [constructor|right; eauto]|].
  destruct (f_enabled (pf_filter pf)) eqn:E.
  - assert (N : ~ filter_off d) by (intros X; apply Ho in X; congruence).
    destruct (Hc r) as [R [X|[[|] X]]]; rewrite X in *; cbn [rbind].
    + split; [|now left]. apply any_crash. now constructor 2.
    + split; [|right; eauto]. apply any_stop. now constructor 2.
    + split; [|exact DI]. apply any_next; [now constructor 2|exact IH].
  - split; [|exact DI]. apply any_next; [|exact IH]. constructor. cbn [snd]. now apply Ho.
Qed.
Lemma falco_worker n dss prs pfs ah m r : files_plain (files dss) -> harmless D ah -> regular r ->
  of_compile D parse_float deq dlt dle n dss = Ok (prs, pfs) ->
  let (es, o) := op_work D enum ah m pfs prs r in of_disposed D parse_float deq dlt dle dss m r (passed es o).
Proof.
  intros Hp Hah Hr Hc. destruct (pf_compile_ok n dss prs pfs Hp Hc) as [F1 F2].
  destruct (filters_run _ _ r F2) as [A B].
  apply (work_turns rule_run (told D) p_rule_of ah Hah) with (drops := filter_occs (declared dss)) (frun := filter_run); auto.
  - intros [o d] pr q (_ & Ho & _) E. constructor. cbn [snd]. now apply Ho.
  - intros [o d] pr q (_ & Ho & _ & Hq) E. destruct (Hq q) as [R Dq]. split; [|exact Dq]. constructor 2; [|exact R]. cbn [snd]. intros X. apply Ho in X. congruence.
  - intros a pr q. apply p_told.
Qed.

(** ** Sigma policies *)
Lemma sigma_worker pmatch (ord : srule -> list nat -> list (string * search)) (Hord : forall r p, Permutation (ord r p) (sr_searches r))
  maps fs prs : os_compile D parse_float deq dlt dle maps pmatch ord fs = Ok (Some prs) ->
  exists srs, readable fs srs /\ forall ah m r, harmless D ah -> regular r ->
    let (es, o) := op_work D enum ah m [] prs r in os_disposed D parse_float deq dlt dle pmatch maps srs m r (passed es o).
Proof.
  intros Hc. unfold os_compile, pc_compile in Hc. destruct (read_rules fs) as [srs|] eqn:Er; [|discriminate].
  apply rbind_ok in Hc as (rss & Hr & Hc). injection Hc as <-. exists srs. split; [now apply read_rules_readable|]. intros ah m r Hah Hreg.
  set (Q := fun (re : srule * sexpr) (pr : prule logs) => r_name (pr_rule pr) = sr_id (fst re) /\ r_tags (pr_rule pr) = map TagStr (sr_tags (fst re)) /\
    r_enabled (pr_rule pr) = true /\ forall x, s_run D parse_float deq dlt dle pmatch maps re x (pr_cond pr x) /\ decided (pr_cond pr x)).
  assert (F : Forall2 Q (s_conditions srs) (concat rss)).
  { unfold s_conditions. apply rmap_ok in Hr. clear - Hr Hord. induction Hr as [|q prs rs rss Hq F IH]; cbn [map concat]; [constructor|].
    apply Forall2_app; [|exact IH]. unfold pc_srule in Hq.
    assert (G : Forall2 (fun e pr => Q (q, e) pr) (sr_conds q) prs).
    { eapply imap_f2; [exact Hq|]. intros i e b Hb. apply rbind_ok in Hb as (c & Hc & Hb). injection Hb as <-.
      split; [reflexivity|]. split; [reflexivity|]. split; [reflexivity|]. intros x. cbn [pr_cond].
      assert (Hd : forall l rr op, decided (t_c l rr op x)) by (intros l rr op; apply compare_run).
      destruct (sexpr_outcome _ maps pmatch x Hd (sr_searches q) (ord q) (Hord q) e _ c Hc) as [A B].
      split; [|exact B]. exists (fun l rr op => t_c l rr op x). split; [|exact A]. intros k y op. apply compare_run. }
    clear - G. induction G; constructor; auto. }
  assert (W := fun Ho Hn Ht => work_turns (s_run D parse_float deq dlt dle pmatch maps) (s_told D) Q ah Hah Ho Hn Ht
    ([] : list unit) (fun _ _ _ => False) _ _ [] m r F Hreg).
  apply W.
  - intros a pr x (_ & _ & E & _) E'. congruence.
  - intros a pr x (_ & _ & _ & H) _. apply H.
  - intros [q e] pr x (Hn & Ht & _) Rx. set (ru := pr_rule pr) in *. destruct (add_noted D parse_float enum Henum x ru Rx) as (ts & N & _ & Pm). exists ts. cbn [fst] in *. rewrite <- Hn.
    split; [eapply Permutation_NoDup; [symmetry; exact Pm|apply tag_set_nodup]|]. split; [|exact N]. intros t. split.
    + intros Hi. apply (Permutation_in _ Pm), tag_set_spec in Hi as (r0 & tg & [<-|[]] & H1 & H2). cbn [snd] in H1. rewrite Ht in H1.
      apply in_map_iff in H1 as (z & <- & Hz). destruct H2 as [<-|[]]. exact Hz.
    + intros Hi. apply (Permutation_in _ (Permutation_sym Pm)), tag_set_spec. exists (r_name ru, r_tags ru), (TagStr t). cbn [snd]. rewrite Ht.
      split; [now left|]. split; [now apply in_map|now left].
  - constructor.
  - right. exists false. reflexivity.
Qed.
End O.
