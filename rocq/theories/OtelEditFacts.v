(** * OtelEditFacts: how edits of a policy change what OpenTelemetry logs are told. *)
From Coq Require Import Lia Permutation.
From Verif Require Import GoBase GoFacts Predicates FalcoModel SpecFalco FalcoFacts FalcoFacts2 SigmaModel EngineModel SpecEngine OtelModel SpecOtel OtelEngine SpecOtelEngine OtelEngineFacts
  PoolModel SpecPool PoolFacts4 MonitorModel SpecMonitor SpecLexer InitModel SpecInit InitFacts LiveFacts SpecEdit EditFacts SpecOtelEdit.
Local Open Scope list_scope.

Section V.
Variable F : Type.
Variable parse_float : string -> option F.
Variables deq dlt dle : F -> F -> bool.
Definition rf (r : logs F) (od : occurrence * ruledecl) : Prop := o_rule_fires F parse_float deq dlt dle od r.
Definition ff (r : logs F) (od : occurrence * filterdecl) : Prop := o_filter_fires F parse_float deq dlt dle od r.
Definition said (m : mode) (fired : list (occurrence * ruledecl)) : o_verdict :=
  match m, fired with AlertMode, [] => None | _, _ => Some (map (fun x => rd_name (snd x)) fired) end.
Definition gives (fs : list (occurrence * filterdecl)) (rs : list (occurrence * ruledecl)) (m : mode) (fr : logs F) (v : o_verdict) : Prop :=
  ((exists od, In od fs /\ ff fr od) /\ v = None) \/
  (~ (exists od, In od fs /\ ff fr od) /\ exists fired, selects (rf fr) rs fired /\ v = said m fired).

Section Fire.
Variables S T : string -> Prop.
Lemma rule_fires_same fr a b d : same S T a b -> Forall (within S T) (around a) -> within S T (DRule d) -> (rf fr (a, d) <-> rf fr (b, d)).
Proof. intros Hs Hw [W1 W2]. unfold rf, o_rule_fires. rewrite (ev_same S T a b _ _ Hs Hw W1 W2). reflexivity. Qed.
Lemma filter_fires_same fr a b d : same S T a b -> Forall (within S T) (around a) -> within S T (DFilter d) -> (ff fr (a, d) <-> ff fr (b, d)).
Proof. intros Hs Hw [W1 W2]. unfold ff, o_filter_fires. rewrite (ev_same S T a b _ _ Hs Hw W1 W2). reflexivity. Qed.
Lemma rules_alike fr os os' : Forall2 (same S T) os os' -> Forall (fun o => Forall (within S T) (around o) /\ within S T (oc_decl o)) os ->
  Forall2 (alike (rf fr) (fun x => rd_name (snd x))) (rule_occs os) (rule_occs os').
Proof.
  induction 1 as [|o o' os os' H _ IH]; intros W; [constructor|]. inversion W as [|? ? [W1 W2] W']; subst. cbn [rule_occs]. rewrite <- (proj1 H).
  destruct (oc_decl o) eqn:E; auto. constructor; [|auto]. split; [reflexivity|]. apply rule_fires_same; assumption.
Qed.
Lemma filters_alike fr os os' : Forall2 (same S T) os os' -> Forall (fun o => Forall (within S T) (around o) /\ within S T (oc_decl o)) os ->
  Forall2 (alike (ff fr) (fun _ => tt)) (filter_occs os) (filter_occs os').
Proof.
  induction 1 as [|o o' os os' H _ IH]; intros W; [constructor|]. inversion W as [|? ? [W1 W2] W']; subst. cbn [filter_occs]. rewrite <- (proj1 H).
  destruct (oc_decl o) eqn:E; auto. constructor; [|auto]. split; [reflexivity|]. apply filter_fires_same; assumption.
Qed.
End Fire.

(** ** The effects *)
Notation dgives D m fr v := (gives (filter_occs (declared D)) (rule_occs (declared D)) m fr v).
Notation al fr := (alike (rf fr) (fun x : occurrence * ruledecl => rd_name (snd x))).
Notation fal fr := (alike (ff fr) (fun _ : occurrence * filterdecl => tt)).
Lemma said_eq m s s' : map (fun x => rd_name (snd x)) s = map (fun x => rd_name (snd x)) s' -> said m s = said m s'.
Proof. unfold said. destruct s, s'; cbn [map]; intros E; try discriminate; [reflexivity|]. rewrite E. destruct m; reflexivity. Qed.
Lemma gives_alike fs rs fs' rs' m fr v v' : Forall2 (fal fr) fs fs' -> Forall2 (al fr) rs rs' -> gives fs rs m fr v -> gives fs' rs' m fr v' -> v' = v.
Proof.
  intros Hf Hr [[H ->]|(H & s & Hs & ->)] [[H' ->]|(H' & s' & Hs' & ->)]; pose proof (drop_alike _ _ _ _ Hf); try tauto.
  symmetry. apply said_eq. eapply sel_alike; eassumption.
Qed.
Definition ALL : string -> Prop := fun _ => True.
Lemma nothing_eqd S T x : defines_nothing x -> eqd S T [x] [].
Proof. destruct x; intros []; split; reflexivity. Qed.
Lemma rule_added_gives D D' d o m fr v v' : inserted (DRule d) o D D' -> dgives D m fr v -> dgives D' m fr v' -> o_rule_added F parse_float deq dlt dle D o d m fr v v'.
Proof.
  intros Hi. assert (Eo : oc_decl o = DRule d) by (destruct Hi as [A B C E ->]; reflexivity).
  destruct (inserted_occs ALL ALL _ _ _ _ Hi (nothing_eqd ALL ALL (DRule d) Logic.I)) as (P & Q & P' & Q' & E1 & E2 & HP & HQ).
  assert (Hf : Forall2 (fal fr) (filter_occs (declared D)) (filter_occs (declared D'))).
  { rewrite E1, E2, !filter_occs_app. cbn [filter_occs]. rewrite Eo. apply Forall2_app; apply (filters_alike ALL ALL); auto using all_within. }
  pose proof (rules_alike ALL ALL fr _ _ HP (all_within _)) as RP. pose proof (rules_alike ALL ALL fr _ _ HQ (all_within _)) as RQ.
  pose proof (drop_alike _ _ _ _ Hf) as Hd. unfold o_rule_added, o_filtered.
  intros [[H ->]|(H & s & Hs & ->)] [[H' ->]|(H' & s' & Hs' & ->)]; try tauto. right.
  rewrite E1, rule_occs_app in Hs. rewrite E2, rule_occs_app in Hs'. cbn [rule_occs] in Hs'. rewrite Eo in Hs'.
  apply sel_app in Hs as (sa & sb & -> & Ha & Hb). apply sel_app in Hs' as (sa' & sb' & -> & Ha' & Hb').
  pose proof (sel_alike _ _ _ _ RP _ _ Ha Ha') as Ea. inversion Hb' as [|? ? sb'' Hx Hb''|? ? ? Hx Hb'']; subst.
  - right. split; [exact H|]. split; [exact Hx|]. pose proof (sel_alike _ _ _ _ RQ _ _ Hb Hb'') as Eb.
    exists (map (fun x => rd_name (snd x)) sa), (map (fun x => rd_name (snd x)) sb). split.
    + unfold said. rewrite map_app. cbn [map snd]. rewrite Ea, Eb. destruct sa', m; reflexivity.
    + unfold said. rewrite map_app. destruct m; [left; reflexivity|]. destruct (sa ++ sb) eqn:Esb; [|left; reflexivity]. apply app_eq_nil in Esb as [-> ->]. right. auto.
  - left. split; [exact H|]. split; [exact Hx|]. pose proof (sel_alike _ _ _ _ RQ _ _ Hb Hb'') as Eb. apply said_eq. rewrite !map_app, Ea, Eb. reflexivity.
Qed.
Lemma filter_added_gives D D' d o m fr v v' : inserted (DFilter d) o D D' -> dgives D m fr v -> dgives D' m fr v' -> o_filter_added F parse_float deq dlt dle D o d m fr v v'.
Proof.
  intros Hi. assert (Eo : oc_decl o = DFilter d) by (destruct Hi as [A B C E ->]; reflexivity).
  destruct (inserted_occs ALL ALL _ _ _ _ Hi (nothing_eqd ALL ALL (DFilter d) I)) as (P & Q & P' & Q' & E1 & E2 & HP & HQ).
  assert (Hr : Forall2 (al fr) (rule_occs (declared D)) (rule_occs (declared D'))).
  { rewrite E1, E2, !rule_occs_app. cbn [rule_occs]. rewrite Eo. apply Forall2_app; apply (rules_alike ALL ALL); auto using all_within. }
  pose proof (drop_alike _ _ _ _ (filters_alike ALL ALL fr _ _ HP (all_within _))) as RP. pose proof (drop_alike _ _ _ _ (filters_alike ALL ALL fr _ _ HQ (all_within _))) as RQ.
  assert (Hd : (exists od, In od (filter_occs (declared D')) /\ ff fr od) <-> (exists od, In od (filter_occs (declared D)) /\ ff fr od) \/ ff fr (o, d)).
  { rewrite E1, E2, !filter_occs_app. cbn [filter_occs]. rewrite Eo. split.
    - intros (od & Hin & Hf). rewrite in_app_iff in Hin. destruct Hin as [Hin|[<-|Hin]]; [|right; exact Hf|].
      + left. destruct (proj2 RP) as (od' & ? & ?); [eauto|]. exists od'. rewrite in_app_iff. auto.
      + left. destruct (proj2 RQ) as (od' & ? & ?); [eauto|]. exists od'. rewrite in_app_iff. auto.
    - intros [(od & Hin & Hf)|Hf]; [|exists (o, d); rewrite in_app_iff; cbn; auto].
      rewrite in_app_iff in Hin. destruct Hin as [Hin|Hin].
      + destruct (proj1 RP) as (od' & ? & ?); [eauto|]. exists od'. rewrite in_app_iff. auto.
      + destruct (proj1 RQ) as (od' & ? & ?); [eauto|]. exists od'. rewrite in_app_iff. cbn. auto. }
  unfold o_filter_added, o_filtered.
  intros [[H ->]|(H & s & Hs & ->)] [[H' ->]|(H' & s' & Hs' & ->)]; try tauto.
  right. left. split; [exact H|]. split; [tauto|]. symmetry. apply said_eq. eapply sel_alike; eassumption.
Qed.
Lemma exchanged_gives D D' dx ox dy oy m fr v v' : swapped (DRule dx) ox (DRule dy) oy D D' -> dgives D m fr v -> dgives D' m fr v' -> o_exchanged F parse_float deq dlt dle D ox dx oy dy m fr v v'.
Proof.
  intros Hi. destruct (swapped_occs ALL ALL _ _ _ _ _ _ Hi (nothing_eqd ALL ALL (DRule dx) I) (nothing_eqd ALL ALL (DRule dy) I)) as (P & Q & ox' & oy' & P' & Q' & E1 & E2 & Ex & Ey & Sx & Sy & HP & HQ).
  pose proof (eq_sym (proj1 Sx)) as Ex'. rewrite Ex in Ex'. pose proof (eq_sym (proj1 Sy)) as Ey'. rewrite Ey in Ey'.
  assert (Hf : Forall2 (fal fr) (filter_occs (declared D)) (filter_occs (declared D'))).
  { rewrite E1, E2, !filter_occs_app. cbn [filter_occs]. rewrite Ex, Ey, Ex', Ey'. apply Forall2_app; apply (filters_alike ALL ALL); auto using all_within. }
  pose proof (rules_alike ALL ALL fr _ _ HP (all_within _)) as RP. pose proof (rules_alike ALL ALL fr _ _ HQ (all_within _)) as RQ.
  assert (W : forall d, within ALL ALL d) by (intros d; split; intros; exact Logic.I).
  assert (Fx : rf fr (ox, dx) <-> rf fr (ox', dx)) by (apply (rule_fires_same ALL ALL); [exact Sx|rewrite Forall_forall; auto|auto]).
  assert (Fy : rf fr (oy, dy) <-> rf fr (oy', dy)) by (apply (rule_fires_same ALL ALL); [exact Sy|rewrite Forall_forall; auto|auto]).
  pose proof (drop_alike _ _ _ _ Hf) as Hd. unfold o_exchanged, o_filtered.
  intros [[H ->]|(H & s & Hs & ->)] [[H' ->]|(H' & s' & Hs' & ->)]; try tauto. right.
  rewrite E1, rule_occs_app in Hs. rewrite E2, rule_occs_app in Hs'. cbn [rule_occs] in Hs, Hs'. rewrite Ex, Ey in Hs. rewrite Ex', Ey' in Hs'.
  apply sel_app in Hs as (sa & sb & -> & Ha & Hb). apply sel_app in Hs' as (sa' & sb' & -> & Ha' & Hb').
  pose proof (sel_alike _ _ _ _ RP _ _ Ha Ha') as Ea.
  inversion Hb as [|? ? s1 Hx1 Hb1|? ? ? Hx1 Hb1]; subst; inversion Hb1 as [|? ? s2 Hy1 Hb2|? ? ? Hy1 Hb2]; subst;
    (inversion Hb' as [|? ? t1 Hy1' Hb1'|? ? ? Hy1' Hb1']; subst; [|]); (inversion Hb1' as [|? ? t2 Hx1' Hb2'|? ? ? Hx1' Hb2']; subst; [|]); try tauto;
    pose proof (sel_alike _ _ _ _ RQ _ _ Hb2 Hb2') as Eb.
  1:{ right. split; [exact H|]. split; [split; assumption|].
    exists (map (fun x => rd_name (snd x)) sa), (map (fun x => rd_name (snd x)) s2). unfold said. rewrite !map_app. cbn [map snd]. rewrite <- Ea, <- Eb. split; [destruct sa, m; reflexivity|]. destruct sa', m; reflexivity. }
  all: left; split; [exact H|]; split; [tauto|]; apply said_eq; rewrite !map_app; cbn [map snd]; rewrite Ea, Eb; reflexivity.
Qed.

(** A rule and a filter, or two filters, change places. *)
Definition no_rule (x : decl) : Prop := forall d, x <> DRule d.
Lemma swap_filter_gives D D' x ox y oy m fr v v' : defines_nothing x -> defines_nothing y -> no_rule x \/ no_rule y ->
  swapped x ox y oy D D' -> dgives D m fr v -> dgives D' m fr v' -> o_no_effect F m fr v v'.
Proof.
  intros Nx Ny Hor Hi. destruct (swapped_occs ALL ALL _ _ _ _ _ _ Hi (nothing_eqd ALL ALL _ Nx) (nothing_eqd ALL ALL _ Ny)) as (P & Q & ox' & oy' & P' & Q' & E1 & E2 & Ex & Ey & Sx & Sy & HP & HQ).
  pose proof (eq_sym (proj1 Sx)) as Ex'. rewrite Ex in Ex'. pose proof (eq_sym (proj1 Sy)) as Ey'. rewrite Ey in Ey'.
  assert (W : forall d, within ALL ALL d) by (intros d; split; intros; exact Logic.I).
  assert (Hr : Forall2 (al fr) (rule_occs (declared D)) (rule_occs (declared D'))).
  { assert (H1 : forall u, rule_occs (ox :: oy :: u) = rule_occs (oy :: ox :: u)).
    { intros u. cbn [rule_occs]. rewrite Ex, Ey. destruct Hor as [Hn|Hn]; destruct x, y; try reflexivity; edestruct Hn; reflexivity. }
    rewrite E1, E2, !rule_occs_app, H1, <- !rule_occs_app. apply (rules_alike ALL ALL); [|apply all_within]. apply Forall2_app; [assumption|]. constructor; [assumption|]. constructor; assumption. }
  assert (Hd : (exists od, In od (filter_occs (declared D)) /\ ff fr od) <-> (exists od, In od (filter_occs (declared D')) /\ ff fr od)).
  { assert (K : Forall2 (fal fr) (filter_occs (P ++ oy :: ox :: Q)) (filter_occs (declared D'))).
    { rewrite E2. apply (filters_alike ALL ALL); [|apply all_within]. apply Forall2_app; [assumption|]. constructor; [assumption|]. constructor; assumption. }
    rewrite <- (drop_alike _ _ _ _ K). rewrite E1.
    assert (Hin : forall od, In od (filter_occs (P ++ ox :: oy :: Q)) <-> In od (filter_occs (P ++ oy :: ox :: Q))).
    { intros od. rewrite !filter_occs_app, !in_app_iff. cbn [filter_occs]. destruct (oc_decl ox), (oc_decl oy); cbn [In]; tauto. }
    split; intros (od & H1 & H2); exists od; (split; [apply Hin|]; assumption). }
  intros [[H ->]|(H & s & Hs & ->)] [[H' ->]|(H' & s' & Hs' & ->)]; try tauto; [reflexivity|].
  symmetry. apply said_eq. eapply sel_alike; eassumption.
Qed.

(** Definitions nobody uses. *)
Lemma unused_gives D D' x o m fr v v' : unused x D -> inserted x o D D' -> dgives D m fr v -> dgives D' m fr v' -> o_no_effect F m fr v v'.
Proof.
  intros Hu Hi.
  set (S := fun n => match x with DMacro y _ _ => n <> y | _ => True end). set (T := fun n => match x with DList y _ => n <> y | _ => True end).
  assert (Nx : eqd S T [x] []).
  { unfold S, T. split; intros n Hn; cbn [last_def orelse]; destruct x; try contradiction; cbn [macro_def list_def]; try reflexivity; apply seqb_neq in Hn; now rewrite Hn. }
  assert (Ww : Forall (Forall (within S T)) D).
  { rewrite Forall_forall. intros ds Hds. rewrite Forall_forall. intros d Hd. unfold within, S, T. destruct x as [| | | |]; try contradiction; cbn [unused] in Hu.
    all: split; intros n' Hn'; try exact Logic.I; intros ->; exact (Hu ds d Hds Hd Hn'). }
  pose proof (occs_around _ D [] (Forall_nil _) Ww) as Wo. fold (declared D) in Wo.
  destruct (inserted_occs S T _ _ _ _ Hi Nx) as (P & Q & P' & Q' & E1 & E2 & HP & HQ).
  assert (Eo : oc_decl o = x) by (destruct Hi as [A B C E ->]; reflexivity).
  rewrite E1 in Wo. apply Forall_app in Wo as [WP WQ].
  intros G G'. apply (gives_alike (filter_occs (declared D)) (rule_occs (declared D)) (filter_occs (declared D')) (rule_occs (declared D')) m fr); [| |exact G|exact G'].
  - rewrite E1, E2, !filter_occs_app. cbn [filter_occs]. rewrite Eo. destruct x; try contradiction; (apply Forall2_app; apply (filters_alike S T); assumption).
  - rewrite E1, E2, !rule_occs_app. cbn [rule_occs]. rewrite Eo. destruct x; try contradiction; (apply Forall2_app; apply (rules_alike S T); assumption).
Qed.

(** Macros written out. *)
Lemma inlined_gives D D' x o y m fr v v' : inlined_in o x y -> replaced x o y D D' -> dgives D m fr v -> dgives D' m fr v' -> o_no_effect F m fr v v'.
Proof.
  intros Hn Hi. assert (Nx : eqd ALL ALL [x] [y]) by (destruct Hn; split; reflexivity).
  destruct (replaced_occs ALL ALL _ _ _ _ _ Hi Nx) as (P & Q & o' & P' & Q' & E1 & E2 & Ex & Ey & Hm & Hl & HP & HQ).
  assert (W : forall d, within ALL ALL d) by (intros d; split; intros; exact Logic.I).
  assert (Ev : forall e e' A u, inlined_e (oc_macros o) e e' -> (ev (oc_macros o) (oc_lists o) A e u <-> ev (oc_macros o') (oc_lists o') A e' u)).
  { intros e e' A u He. rewrite (proj1 (proj2 (inline_ev _ _ A)) e e' He u).
    set (b := mkOcc (oc_earlier o') (oc_pre o') (oc_whole o') (oc_decl o)).
    change (oc_macros o') with (oc_macros b). change (oc_lists o') with (oc_lists b). apply (ev_same ALL ALL); try (intros; exact Logic.I).
    - split; [reflexivity|]. split; [exact Hm|exact Hl].
    - rewrite Forall_forall. auto. }
  intros G G'. apply (gives_alike (filter_occs (declared D)) (rule_occs (declared D)) (filter_occs (declared D')) (rule_occs (declared D')) m fr); [| |exact G|exact G'].
  - rewrite E1, E2, !filter_occs_app. apply Forall2_app; [apply (filters_alike ALL ALL); auto using all_within|]. cbn [filter_occs]. rewrite Ex, Ey.
    destruct Hn as [nm ds e e' opts He|nm e e' en He].
    + apply (filters_alike ALL ALL); auto using all_within.
    + constructor; [|apply (filters_alike ALL ALL); auto using all_within]. split; [reflexivity|]. unfold ff, o_filter_fires. cbn [fd_enabled fd_cond]. rewrite (Ev _ _ _ _ He). reflexivity.
  - rewrite E1, E2, !rule_occs_app. apply Forall2_app; [apply (rules_alike ALL ALL); auto using all_within|]. cbn [rule_occs]. rewrite Ex, Ey.
    destruct Hn as [nm ds e e' opts He|nm e e' en He].
    + constructor; [|apply (rules_alike ALL ALL); auto using all_within]. split; [reflexivity|]. unfold rf, o_rule_fires. cbn [rd_opts rd_cond]. rewrite (Ev _ _ _ _ He). reflexivity.
    + apply (rules_alike ALL ALL); auto using all_within.
Qed.


(** ** From the policy files *)
Lemma once_gives D m r o : o_told_once F parse_float deq dlt dle D m r o -> exists v, o_tells F r o v /\ dgives D m r v.
Proof.
  intros [[H ->]|(H & fired & Hs & [[-> ->]|(Hn & tss & _ & ->)])].
  - exists None. split; [constructor|left; auto].
  - destruct m.
    + exists (Some []). split; [constructor|right; split; [exact H|]; exists []; auto].
    + exists None. split; [constructor|right; split; [exact H|]; exists []; auto].
  - exists (Some (map (fun x => rd_name (snd x)) fired)). split.
    + apply ot_names. destruct fired; [contradiction|discriminate].
    + right. split; [exact H|]. exists fired. split; [exact Hs|]. unfold said. destruct fired; [contradiction|]. destruct m; reflexivity.
Qed.
Section Lift.
Variable regcomp : string -> option (string -> string).
Variable enum : logs F -> rule (logs F) -> list string -> list string.
Hypothesis W : forall r ru l, Permutation (enum r ru l) l.
Notation ops := (o_ops F parse_float deq dlt dle regcomp).
Lemma unseen_regular r : unseen F r -> regular F r.
Proof. destruct r as [res scopes]. intros H. exists res, scopes. auto. Qed.
Lemma disposed_tells D m r o : looks_away D -> unseen F r -> o_disposed F parse_float deq dlt dle D m r o -> exists v, o_tells F r o v /\ dgives D m r v.
Proof. destruct r as [res scopes]. intros Ha Hu H. apply once_gives. exact (away_once F parse_float deq dlt dle (fun _ => None) D m res scopes o Ha Hu H). Qed.
Lemma lift pmatch ord n h h' conf d ah D D' (E : mode -> logs F -> o_verdict -> o_verdict -> Prop) :
  policies_in conf d -> language_is conf Falco -> harmless F ah -> faithful h d -> faithful h' d -> says h d D -> says h' d D' ->
  looks_away D -> looks_away D' ->
  (forall m fr v v', dgives D m fr v -> dgives D' m fr v' -> E m fr v v') ->
  o_compared F parse_float deq dlt dle regcomp enum pmatch ord n h h' conf ah E /\ o_compared_runs F parse_float deq dlt dle regcomp enum pmatch ord n h h' conf ah E.
Proof.
  intros Hd Hl Hb Hf Hf' [_ U] [_ U'] A A' HE. split.
  - intros p p' m C C' r Hr.
    destruct (interpreter_logs F parse_float deq dlt dle regcomp enum W pmatch ord n h conf d ah m p Hd Hl Hb Hf C) as (ds & (t & T1 & F1) & D1).
    destruct (interpreter_logs F parse_float deq dlt dle regcomp enum W pmatch ord n h' conf d ah m p' Hd Hl Hb Hf' C') as (ds' & (t' & T2 & F2) & D2).
    assert (ds = D) by (apply U; exists t; auto). assert (ds' = D') by (apply U'; exists t'; auto). subst.
    destruct (disposed_tells D m r _ A Hr (D1 r (unseen_regular r Hr))) as (v & V1 & V2).
    destruct (disposed_tells D' m r _ A' Hr (D2 r (unseen_regular r Hr))) as (v' & V1' & V2'). exists v, v'. auto.
  - intros m outCh rd rd' cs cs' s s' tr tr' Hmon Hm ND I1 I2 R1 Fn1 R2 Fn2 Et Un c Hc.
    destruct (static_gen ops pmatch ord n (o_applicable F) (o_add F enum) ah m conf (fun h' => faithful h' d)
      (fun h' dss => exists texts, texts_of h' d texts /\ Forall2 text_reads texts dss) (fun dss r o => regular F r -> o_disposed F parse_float deq dlt dle dss m r o)
      (fun h' p Hg Hp => interpreter_logs F parse_float deq dlt dle regcomp enum W pmatch ord n h' conf d ah m p Hd Hl Hb Hg Hp)
      h d outCh rd cs s tr Hd Hmon Hf ND I1 R1 Fn1) as (ds & (t & T1 & F1) & D1).
    destruct (static_gen ops pmatch ord n (o_applicable F) (o_add F enum) ah m conf (fun h' => faithful h' d)
      (fun h' dss => exists texts, texts_of h' d texts /\ Forall2 text_reads texts dss) (fun dss r o => regular F r -> o_disposed F parse_float deq dlt dle dss m r o)
      (fun h' p Hg Hp => interpreter_logs F parse_float deq dlt dle regcomp enum W pmatch ord n h' conf d ah m p Hd Hl Hb Hg Hp)
      h' d outCh rd' cs' s' tr' Hd Hmon Hf' ND I2 R2 Fn2) as (ds' & (t' & T2 & F2) & D2).
    assert (ds = D) by (apply U; exists t; auto). assert (ds' = D') by (apply U'; exists t'; auto). subst.
    destruct (D1 c Hc) as (os & G1 & P1). destruct (D2 c Hc) as (os' & G2 & P2). rewrite <- Et in G2.
    assert (Z : exists l, map (fun x => fst x) l = taken tr /\ map (fun x => fst (snd x)) l = os /\ map (fun x => snd (snd x)) l = os' /\
      forall r o o', In (r, (o, o')) l -> exists v v', o_tells F r o v /\ o_tells F r o' v' /\ E m r v v').
    { clear - G1 G2 Un A A' HE. revert os' G2. induction G1 as [|r o rs os H _ IH]; intros os' G2; inversion G2 as [|? o' ? os2 H1 H2]; subst.
      - exists []. repeat split; intros; contradiction.
      - inversion Un as [|? ? U1 U2]; subst. destruct (IH U2 _ H2) as (l & E1 & E2 & E3 & E4). exists ((r, (o, o')) :: l). cbn [map fst snd]. rewrite E1, E2, E3. repeat (split; [reflexivity|]).
        intros r0 o0 o0' [Eq|Hin]; [|exact (E4 _ _ _ Hin)]. injection Eq as <- <- <-.
        destruct (disposed_tells D m r _ A U1 (H (unseen_regular r U1))) as (v & V1 & V2).
        destruct (disposed_tells D' m r _ A' U1 (H1 (unseen_regular r U1))) as (v' & V1' & V2'). exists v, v'. auto. }
    destruct Z as (l & E1 & E2 & E3 & E4). exists l. rewrite E2, E3. auto.
Qed.
End Lift.
End V.
