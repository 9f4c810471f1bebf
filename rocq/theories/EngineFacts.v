(** * EngineFacts: proofs about the worker, the action handler and the engine configuration. *)
From Coq Require Import Lia.
From Verif Require Import GoBase GoFacts Predicates PolicyFacts EngineModel SpecEngine.

Section E.
Context {R : Type}.
Variable applicable : R -> rule R -> bool.
Variable add_rule : R -> rule R -> R.
Variable ah : ahandler R.

Lemma eval_filters_spec fs (r : R) :
  eval_filters fs r = true <-> exists f, In f fs /\ f_enabled f = true /\ f_cond f r = true.
Proof.
  induction fs as [|f fs IH]; simpl.
  - split; [discriminate|intros (f & [] & _)].
  - destruct (f_enabled f && c_eval (f_cond f) r) eqn:E.
    + apply andb_true_iff in E as [E1 E2]. split; auto. intros _. exists f. auto.
    + rewrite IH. split.
      * intros (g & Hg & H). exists g; auto.
      * intros (g & [<-|Hg] & H1 & H2); [|exists g; auto]. unfold c_eval in E. rewrite H1, H2 in E. discriminate.
Qed.

Lemma run_actions_names names : forall r : R,
  selects (fun a => find_action ah a <> None) names (acts (snd (run_actions ah names r))) /\
  annots (snd (run_actions ah names r)) = [] /\ outs (snd (run_actions ah names r)) = [].
Proof.
  induction names as [|a names IH]; intros r; simpl; [repeat split; constructor|].
  destruct (find_action ah a) as [f|] eqn:E.
  - destruct (f r) as [r1 failed]. specialize (IH r1). destruct (run_actions ah names r1) as [r2 es]. simpl in *.
    destruct IH as (I1 & I2 & I3). split; [|auto]. constructor; [congruence|auto].
  - destruct (IH r) as (I1 & I2 & I3). split; [|auto]. constructor; [congruence|auto].
Qed.
(** Every invocation is of the function registered under the name. *)
Lemma run_actions_funs names : forall (r : R) a f x, In (FAct a f x) (snd (run_actions ah names r)) ->
  In a names /\ find_action ah a = Some f.
Proof.
  induction names as [|b names IH]; intros r a f x; simpl; [intros []|].
  destruct (find_action ah b) as [g|] eqn:E.
  - destruct (g r) as [r1 failed]. specialize (IH r1). destruct (run_actions ah names r1) as [r2 es]. simpl in *.
    intros [H|H]; [inversion H; subst; auto|]. destruct (IH _ _ _ H); auto.
  - intros H. destruct (IH _ _ _ _ H); auto.
Qed.
Lemma run_actions_thread names : forall r : R, thread r (snd (run_actions ah names r)) (fst (run_actions ah names r)).
Proof.
  induction names as [|b names IH]; intros r; simpl; [constructor|].
  destruct (find_action ah b) as [g|] eqn:E; auto.
  destruct (g r) as [r1 failed] eqn:Eg. specialize (IH r1). destruct (run_actions ah names r1) as [r2 es]. simpl in *.
  constructor. rewrite Eg. auto.
Qed.

Lemma run_actions_same (same : R -> R -> Prop) names :
  (forall r, same r r) -> (forall a b c, same a b -> same b c -> same a c) ->
  (forall a f r, find_action ah a = Some f -> same r (fst (f r))) ->
  forall r, same r (fst (run_actions ah names r)).
Proof.
  intros Hr Ht Ha. induction names as [|b names IH]; intros r; simpl; auto.
  destruct (find_action ah b) as [g|] eqn:E; auto.
  pose proof (Ha b g r E) as Hs. destruct (g r) as [r1 failed]. specialize (IH r1).
  destruct (run_actions ah names r1) as [r2 es]. simpl in *. eauto.
Qed.

Lemma annots_app (a b : list (effect R)) : annots (a ++ b) = annots a ++ annots b.
Proof. unfold annots. apply flat_map_app. Qed.
Lemma acts_app (a b : list (effect R)) : acts (a ++ b) = acts a ++ acts b.
Proof. unfold acts. apply flat_map_app. Qed.
Lemma outs_app (a b : list (effect R)) : outs (a ++ b) = outs a ++ outs b.
Proof. unfold outs. apply flat_map_app. Qed.

Lemma apply_rules_spec same rules : inert same applicable add_rule ah rules ->
  forall r0 r m, same r0 r ->
  let '(r', m', es) := apply_rules applicable add_rule ah rules r m in
  exists fired, selects (fires applicable r0) rules fired /\ blocks ah fired es /\
    (m' = true <-> m = true \/ fired <> []) /\ same r0 r'.
Proof.
  intros (Hr & Ht & Hc & Ha & Hact) r0.
  assert (G : forall l, incl l rules -> forall r m, same r0 r ->
    let '(r', m', es) := apply_rules applicable add_rule ah l r m in
    exists fired, selects (fires applicable r0) l fired /\ blocks ah fired es /\
      (m' = true <-> m = true \/ fired <> []) /\ same r0 r').
  { induction l as [|ru l IH]; intros Hl r m Hs; simpl.
    - exists []. repeat split; try constructor; auto. intros [H|H]; congruence.
    - destruct (Hc r0 r ru Hs) as [C1 C2]; [apply Hl; left; auto|].
      destruct (r_enabled ru && applicable r ru && c_eval (r_cond ru) r) eqn:E.
      + apply andb_true_iff in E as [E E3]. apply andb_true_iff in E as [E1 E2]. unfold c_eval in E3.
        unfold handle_actions.
        pose proof (run_actions_names (r_actions ru) (add_rule r ru)) as (N1 & N2 & N3).
        pose proof (run_actions_funs (r_actions ru) (add_rule r ru)) as N4.
        pose proof (run_actions_same same (r_actions ru) Hr Ht Hact (add_rule r ru)) as N5.
        destruct (run_actions ah (r_actions ru) (add_rule r ru)) as [r2 es]. simpl in *.
        assert (S2 : same r0 r2) by eauto.
        specialize (IH (fun x Hx => Hl x (or_intror Hx)) r2 true S2).
        destruct (apply_rules applicable add_rule ah l r2 true) as [[r3 m3] es3].
        destruct IH as (fired & F1 & F2 & F3 & F4). exists (ru :: fired).
        split; [constructor; auto; unfold fires; rewrite C1, C2; auto|].
        split; [constructor; auto; intros a f x H; eapply N4; eauto|]. split; auto.
        rewrite F3. split; [right; discriminate|auto].
      + specialize (IH (fun x Hx => Hl x (or_intror Hx)) r m Hs).
        destruct (apply_rules applicable add_rule ah l r m) as [[r3 m3] es3].
        destruct IH as (fired & F1 & F2 & F3 & F4). exists fired. split; [|auto].
        constructor; auto. unfold fires. rewrite C1, C2. unfold c_eval in E.
        intros (H1 & H2 & H3). rewrite H1, H2, H3 in E. discriminate. }
  intros r m Hs. apply G; auto. apply incl_refl.
Qed.

Lemma blocks_annots rus es : blocks ah rus es -> annots es = rus /\ outs es = [].
Proof.
  induction 1 as [|ru rus es es' H1 H2 H3 H4 H5 [IH1 IH2]]; [split; reflexivity|].
  change (annots (FAnnot ru :: es ++ es')) with (ru :: annots (es ++ es')).
  change (outs (FAnnot ru :: es ++ es')) with (outs (es ++ es')).
  rewrite annots_app, outs_app, H1, H2, IH1, IH2. auto.
Qed.

(** ** work *)
Lemma work_dropped m filters rules r f :
  In f filters -> f_enabled f = true -> f_cond f r = true ->
  work applicable add_rule ah m filters rules r = (r, []).
Proof.
  intros H1 H2 H3. unfold work. assert (E : eval_filters filters r = true) by (apply eval_filters_spec; eauto).
  rewrite E. reflexivity.
Qed.
Lemma work_kept same m filters rules r : inert same applicable add_rule ah rules ->
  (forall f, In f filters -> f_enabled f = true -> f_cond f r = true -> False) ->
  let (r', es) := work applicable add_rule ah m filters rules r in
  exists fired es0, selects (fires applicable r) rules fired /\ blocks ah fired es0 /\ same r r' /\
    ((m = EnrichMode \/ fired <> []) /\ es = es0 ++ [FOut r'] \/ m = AlertMode /\ fired = [] /\ es = [] /\ r' = r).
Proof.
  intros Hi Hf. unfold work.
  assert (E : eval_filters filters r = false).
  { destruct (eval_filters filters r) eqn:E; auto. apply eval_filters_spec in E as (f & H1 & H2 & H3). destruct (Hf f H1 H2 H3). }
  rewrite E. pose proof Hi as (Hr & _).
  pose proof (apply_rules_spec same rules Hi r r (match m with EnrichMode => true | AlertMode => false end) (Hr r)) as H.
  assert (Hnil : forall l x b, let '(r', _, es) := apply_rules applicable add_rule ah l x b in es = [] -> r' = x).
  { induction l as [|ru l IH]; intros x b; simpl; auto.
    destruct (r_enabled ru && applicable x ru && c_eval (r_cond ru) x); [|apply IH].
    destruct (handle_actions ah ru (add_rule x ru)) as [r2 es]. destruct (apply_rules applicable add_rule ah l r2 true) as [[? ?] ?].
    discriminate. }
  specialize (Hnil rules r (match m with EnrichMode => true | AlertMode => false end)).
  destruct (apply_rules applicable add_rule ah rules r _) as [[r' m'] es].
  destruct H as (fired & F1 & F2 & F3 & F4). exists fired, es. split; auto. split; auto. split; auto.
  destruct m'.
  - left. split; auto. destruct F3 as [F3 _]. destruct (F3 eq_refl) as [K|K]; auto. destruct m; [auto|discriminate].
  - right. destruct F3 as [_ F3]. destruct m; [discriminate F3; auto|].
    assert (fired = []) as ->. { destruct fired; auto. discriminate F3. right; discriminate. }
    inversion F2; subst. auto.
Qed.
End E.

(** ** user actions *)
Lemma load_user_get {R} (fs : list (option (string * action R))) a : forall m,
  mget a (load_user m fs) =
  match mget a (load_user [] fs) with Some f => Some f | None => mget a m end.
Proof.
  induction fs as [|[[n f]|] fs IH]; intros m; simpl; auto.
  rewrite (IH (mset n f m)), (IH (mset n f [])). unfold mset. simpl.
  destruct (mget a (load_user [] fs)); auto. destruct (seqb a n); auto.
Qed.
Lemma declares_inv {R} fs a (f : action R) : declares fs a f ->
  exists fs1 fs2, fs = fs1 ++ Some (a, f) :: fs2 /\ forall g, ~ In (Some (a, g)) fs2.
Proof. intros H; destruct H. eauto. Qed.
Lemma load_user_spec {R} (fs : list (option (string * action R))) a f :
  mget a (load_user [] fs) = Some f <-> declares fs a f.
Proof.
  revert f; induction fs as [|[[n g]|] fs IH]; intros f.
  - simpl. split; [discriminate|]. intros H. apply declares_inv in H as (fs1 & fs2 & Hl & _). destruct fs1; discriminate.
  - cbn [load_user]. rewrite load_user_get. unfold mset. simpl.
    assert (N : mget a (load_user [] fs) = None -> forall h, ~ In (Some (a, h)) fs).
    { clear IH. induction fs as [|[[n' g']|] fs IHf]; simpl; intros H h; [tauto| |].
      - rewrite load_user_get in H. destruct (mget a (load_user [] fs)) eqn:E; [discriminate|]. unfold mset in H. simpl in H.
        destruct (seqb a n') eqn:En; [discriminate|]. intros [K|K]; [inversion K; subst; rewrite (proj2 (seqb_eq a a) eq_refl) in En; discriminate|].
        eapply IHf; eauto.
      - intros [K|K]; [discriminate|]. eapply IHf; eauto. }
    destruct (mget a (load_user [] fs)) as [h|] eqn:E.
    + split.
      * intros H; inversion H; subst. assert (D : declares fs a f) by (apply IH; auto). apply declares_inv in D as (fs1 & fs2 & -> & Hn). apply (dc_intro (Some (n, g) :: fs1) fs2); auto.
      * intros H. apply declares_inv in H as (fs1 & fs2 & Hl & Hn). destruct fs1 as [|x fs1].
        -- inversion Hl; subst. exfalso. assert (D : declares fs2 a h) by (apply IH; auto). apply declares_inv in D as (fs3 & fs4 & -> & _).
           apply (Hn h). apply in_or_app. right; left; auto.
        -- inversion Hl; subst. assert (D : declares (fs1 ++ Some (a, f) :: fs2) a f) by (constructor; auto).
           apply IH in D. congruence.
    + specialize (N eq_refl). destruct (seqb a n) eqn:En.
      * apply seqb_eq in En; subst n. split.
        -- intros H; inversion H; subst. apply (dc_intro [] fs); auto.
        -- intros H. apply declares_inv in H as (fs1 & fs2 & Hl & Hn). destruct fs1 as [|x fs1].
           ++ inversion Hl; auto.
           ++ inversion Hl; subst. exfalso. apply (N f). apply in_or_app; right; left; auto.
      * split; [discriminate|]. intros H. apply declares_inv in H as (fs1 & fs2 & Hl & Hn). destruct fs1 as [|x fs1].
        -- inversion Hl; subst. rewrite (proj2 (seqb_eq a a) eq_refl) in En; discriminate.
        -- inversion Hl; subst. exfalso. apply (N f). apply in_or_app; right; left; auto.
  - simpl. rewrite IH. split; intros H; apply declares_inv in H as (fs1 & fs2 & Hl & Hn); subst.
    + apply (dc_intro (None :: fs1) fs2); auto.
    + destruct fs1 as [|x fs1]; inversion Hl; subst. constructor; auto.
Qed.

(** ** what is recorded on the record *)
Section Track.
Context {R T : Type}.
Variable applicable : R -> rule R -> bool.
Variable add_rule : R -> rule R -> R.
Variable ah : ahandler R.
Variable get : R -> list T.
Variable meta : rule R -> T.
Hypothesis Hadd : forall r ru, get (add_rule r ru) = get r ++ [meta ru].
Hypothesis Hact : forall a f r, find_action ah a = Some f -> get (fst (f r)) = get r.

Lemma run_actions_get names : forall r, get (fst (run_actions ah names r)) = get r.
Proof.
  induction names as [|a names IH]; intros r; simpl; auto.
  destruct (find_action ah a) as [f|] eqn:E; auto. pose proof (Hact a f r E) as K. destruct (f r) as [r1 b].
  specialize (IH r1). destruct (run_actions ah names r1). simpl in *. congruence.
Qed.
Lemma apply_rules_get rules : forall r m,
  let '(r', _, es) := apply_rules applicable add_rule ah rules r m in get r' = get r ++ map meta (annots es).
Proof.
  induction rules as [|ru rules IH]; intros r m; simpl; [rewrite app_nil_r; auto|].
  destruct (r_enabled ru && applicable r ru && c_eval (r_cond ru) r); [|apply IH].
  unfold handle_actions. pose proof (run_actions_get (r_actions ru) (add_rule r ru)) as K.
  destruct (run_actions_names ah (r_actions ru) (add_rule r ru)) as (_ & N & _).
  destruct (run_actions ah (r_actions ru) (add_rule r ru)) as [r2 es]. simpl in *.
  specialize (IH r2 true). destruct (apply_rules applicable add_rule ah rules r2 true) as [[r3 m3] es3].
  change (annots (FAnnot ru :: es ++ es3)) with (ru :: annots (es ++ es3)). rewrite annots_app, N. simpl.
  rewrite IH, K, Hadd, <- app_assoc. reflexivity.
Qed.
Lemma work_get m filters rules r :
  let (r', es) := work applicable add_rule ah m filters rules r in get r' = get r ++ map meta (annots es).
Proof.
  unfold work. destruct (eval_filters filters r); [rewrite app_nil_r; auto|].
  pose proof (apply_rules_get rules r (match m with EnrichMode => true | AlertMode => false end)) as H.
  destruct (apply_rules applicable add_rule ah rules r _) as [[r' m'] es]. destruct m'; auto.
  rewrite annots_app. simpl. rewrite app_nil_r. auto.
Qed.
End Track.

(** ** configuration *)
Lemma atoi_spec s : atoi s = match parse_int64 s with
                             | Some v => (v, false)
                             | None => (fst (atoi s), true)
                             end.
Proof.
  unfold atoi, parse_int64. destruct (match s with EmptyString => _ | String _ _ => _ end) as [v|]; [|reflexivity].
  destruct (in_int64 v); reflexivity.
Qed.
Lemma cstr_given conf k : match cstr k conf with Some s => given conf k s | None => not_given conf k end.
Proof.
  unfold cstr, not_given, given. destruct (mget k conf) as [[s|]|]; auto; intros s H; discriminate.
Qed.
Lemma cstr_text conf k d : text_option conf k d (match cstr k conf with Some v => v | None => d end).
Proof. unfold text_option. pose proof (cstr_given conf k). destruct (cstr k conf); auto. Qed.
Lemma given_fun conf k s s' : given conf k s -> given conf k s' -> s' = s.
Proof. unfold given. congruence. Qed.
Lemma num_option conf k d : number_option conf k d (match cstr k conf with Some v => fst (atoi v) | None => d end).
Proof.
  pose proof (cstr_given conf k) as G. unfold number_option. destruct (cstr k conf) as [s|].
  - split; [|intros H; exfalso; apply (H s); auto]. intros w z Hw Hz. rewrite (given_fun _ _ _ _ G Hw) in Hz.
    rewrite atoi_spec, Hz. reflexivity.
  - split; [|auto]. intros w z Hw. exfalso. apply (G w); auto.
Qed.
Lemma create_config_eq conf : create_config conf =
  let str k d := match cstr k conf with Some v => v | None => d end in
  let num k d := match cstr k conf with Some v => fst (atoi v) | None => d end in
  let bad k d := match cstr k conf with Some v => snd (atoi v) | None => d end in
  (mkConfig (str "policies" "") (str "config" "")
     (match cstr "language" conf with Some v => parse_language v | None => Falco end)
     (match cstr "mode" conf with Some v => parse_mode v | None => AlertMode end)
     (str "version" "") (str "jsonschemaversion" "") (str "buildnumber" "")
     (match cstr "monitor" conf with Some v => parse_montype v | None => NoneType end)
     (match cstr "monitor.interval" conf with
      | Some v => if snd (atoi v) then (30 * second)%Z else wrap64 (fst (atoi v) * second) | None => (30 * second)%Z end)
     (num "concurrency" 5%Z) (str "actiondir" "../resources/actions")
     (num "bench.rulesetsize" (-1)%Z) (num "bench.ruleindex" (-1)%Z),
   bad "bench.ruleindex" (bad "bench.rulesetsize" (bad "concurrency" (bad "monitor.interval" false)))).
Proof.
  unfold create_config.
  destruct (cstr "monitor.interval" conf) as [v1|]; [destruct (atoi v1) as [d1 e1]|];
  (destruct (cstr "concurrency" conf) as [v2|]; [destruct (atoi v2) as [d2 e2]|]);
  (destruct (cstr "bench.rulesetsize" conf) as [v3|]; [destruct (atoi v3) as [d3 e3]|]);
  (destruct (cstr "bench.ruleindex" conf) as [v4|]; [destruct (atoi v4) as [d4 e4]|]); reflexivity.
Qed.
Lemma words2 {A} (w1 w2 : string) (a1 a2 : A) s : w1 <> w2 ->
  In (s, if seqb w1 s then a1 else if seqb w2 s then a2 else a1) [(w1, a1); (w2, a2)] \/
  ((forall a, ~ In (s, a) [(w1, a1); (w2, a2)]) /\ (if seqb w1 s then a1 else if seqb w2 s then a2 else a1) = a1).
Proof.
  intros N. destruct (seqb w1 s) eqn:E1; [apply seqb_eq in E1; subst; left; left; auto|].
  destruct (seqb w2 s) eqn:E2; [apply seqb_eq in E2; subst; left; right; left; auto|]. right. split; auto.
  intros a [H|[H|[]]]; inversion H; subst; rewrite (proj2 (seqb_eq s s) eq_refl) in *; discriminate.
Qed.
Lemma create_config_spec conf : let c := fst (create_config conf) in
  text_option conf "policies" "" (c_policies c) /\ text_option conf "config" "" (c_config c) /\
  text_option conf "version" "" (c_version c) /\ text_option conf "jsonschemaversion" "" (c_schema c) /\
  text_option conf "buildnumber" "" (c_build c) /\ text_option conf "actiondir" "../resources/actions" (c_actiondir c) /\
  word_option conf "language" [("falco", Falco); ("sigma", Sigma)] Falco Falco (c_language c) /\
  word_option conf "mode" [("enrich", EnrichMode); ("alert", AlertMode)] EnrichMode AlertMode (c_mode c) /\
  word_option conf "monitor" [("none", NoneType); ("local", LocalType)] NoneType NoneType (c_monitor c) /\
  number_option conf "concurrency" 5 (c_concurrency c) /\
  number_option conf "bench.rulesetsize" (-1) (c_benchsize c) /\ number_option conf "bench.ruleindex" (-1) (c_benchindex c) /\
  (forall w, given conf "monitor.interval" w ->
     c_interval c = match parse_int64 w with Some z => wrap64 (z * 1000000000) | None => 30000000000%Z end) /\
  (not_given conf "monitor.interval" -> c_interval c = 30000000000%Z).
Proof.
  cbv zeta. rewrite create_config_eq. cbn [fst c_policies c_config c_version c_schema c_build c_actiondir c_language c_mode
    c_monitor c_concurrency c_benchsize c_benchindex c_interval].
  do 6 (split; [apply cstr_text|]).
  assert (W : forall (A : Type) k (w1 w2 : string) (a1 a2 d : A), w1 <> w2 ->
    word_option conf k [(w1, a1); (w2, a2)] a1 d
      (match cstr k conf with Some v => if seqb w1 v then a1 else if seqb w2 v then a2 else a1 | None => d end)).
  { intros A k w1 w2 a1 a2 d N. unfold word_option. pose proof (cstr_given conf k) as G. destruct (cstr k conf) as [s|]; auto.
    left. exists s. split; auto. apply words2; auto. }
  split; [apply (W language "language" "falco" "sigma"); discriminate|].
  split; [apply (W mode "mode" "enrich" "alert"); discriminate|].
  split; [apply (W montype "monitor" "none" "local"); discriminate|].
  do 3 (split; [apply num_option|]).
  pose proof (cstr_given conf "monitor.interval") as G. destruct (cstr "monitor.interval" conf) as [s|]; split.
  - intros w Hw. rewrite (given_fun _ _ _ _ G Hw), atoi_spec. destruct (parse_int64 s); reflexivity.
  - intros H. exfalso. apply (H s); auto.
  - intros w Hw. exfalso. apply (G w); auto.
  - reflexivity.
Qed.
Lemma create_config_malformed conf w : given conf "concurrency" w -> parse_int64 w = None ->
  c_concurrency (fst (create_config conf)) = 0%Z \/ c_concurrency (fst (create_config conf)) = int64_max
  \/ c_concurrency (fst (create_config conf)) = int64_min.
Proof.
  intros G E. rewrite create_config_eq. cbn [fst c_concurrency]. unfold cstr. rewrite G.
  revert E. unfold atoi, parse_int64. destruct (match w with EmptyString => _ | String _ _ => _ end) as [v|]; [|auto].
  destruct (in_int64 v); [discriminate|]. simpl. destruct (Z.ltb v 0); auto.
Qed.
Lemma atoi_format z : atoi (format_int z) = if in_int64 z then (z, false) else ((if Z.ltb z 0 then int64_min else int64_max), true).
Proof.
  unfold format_int, atoi.
  pose proof (to_uint_nonnil z) as Hn. pose proof (DecimalZ.of_to z) as Hz.
  destruct (Z.to_int z) as [u|u]; cbn [DecimalString.NilZero.string_of_int].
  - rewrite (nilzero_uint _ Hn). destruct (string_of_uint_nonempty _ Hn) as (a & s & E).
    assert (Hp : parse_nonempty (DecimalString.NilEmpty.string_of_uint u) = Some z).
    { unfold parse_nonempty. rewrite E, <- E, parse_digits_uint, uint_val_of_uint. f_equal. exact Hz. }
    destruct (first_digit_not_sign _ _ _ E) as [H1 H2].
    rewrite E in *.
    assert (Hgoal : match String a s with
                    | String "-"%char s' => option_map Z.opp (parse_nonempty s')
                    | String "+"%char s' => parse_nonempty s'
                    | _ => parse_nonempty (String a s) end = parse_nonempty (String a s)).
    { destruct a as [[] [] [] [] [] [] [] []]; try reflexivity; congruence. }
    cbv zeta. rewrite Hgoal, Hp. reflexivity.
  - rewrite (nilzero_uint _ Hn). destruct (string_of_uint_nonempty _ Hn) as (a & s & E).
    assert (Hp : option_map Z.opp (parse_nonempty (DecimalString.NilEmpty.string_of_uint u)) = Some z).
    { unfold parse_nonempty. rewrite E, <- E, parse_digits_uint, uint_val_of_uint. cbn [option_map]. f_equal. exact Hz. }
    cbv zeta. rewrite Hp. reflexivity.
Qed.
Lemma create_config_clamped conf z : given conf "concurrency" (format_int z) ->
  c_concurrency (fst (create_config conf)) = Z.max (-9223372036854775808) (Z.min 9223372036854775807 z).
Proof.
  intros G. rewrite create_config_eq. cbn [fst c_concurrency]. unfold cstr. rewrite G, atoi_format.
  unfold in_int64, int64_min, int64_max. destruct (Z.leb_spec (-9223372036854775808) z), (Z.leb_spec z 9223372036854775807); cbn [andb fst]; try lia;
  destruct (Z.ltb_spec z 0); lia.
Qed.
Lemma create_config_masked conf w z : given conf "bench.ruleindex" w -> parse_int64 w = Some z -> snd (create_config conf) = false.
Proof.
  intros G E. rewrite create_config_eq. cbn [snd]. unfold cstr at 1. rewrite G. rewrite atoi_spec, E. reflexivity.
Qed.
Lemma handle_actions_spec {R} (ah : ahandler R) ru r :
  let (r', es) := handle_actions ah ru r in
  selects (fun a => find_action ah a <> None) (r_actions ru) (acts es) /\
  length es = length (acts es) /\
  (forall a f x, In (FAct a f x) es -> find_action ah a = Some f) /\
  thread r es r'.
Proof.
  unfold handle_actions. pose proof (run_actions_names ah (r_actions ru) r) as (H1 & _ & _).
  pose proof (run_actions_funs ah (r_actions ru) r) as H2. pose proof (run_actions_thread ah (r_actions ru) r) as H3.
  destruct (run_actions ah (r_actions ru) r) as [r' es]. simpl in *. split; auto. split; [|split; auto].
  - clear -H3. induction H3; simpl; auto.
  - intros a f x H. destruct (H2 a f x H); auto.
Qed.
Lemma find_action_spec {R} (bi : gomap (action R)) fs a f :
  find_action (mkAH bi (load_user [] fs)) a = Some f <-> mget a bi = Some f \/ (mget a bi = None /\ declares fs a f).
Proof.
  unfold find_action. simpl. destruct (mget a bi) as [g|] eqn:E.
  - split; [auto|]. intros [H|[H _]]; [auto|discriminate].
  - rewrite load_user_spec. split; [auto|]. intros [H|[_ H]]; [discriminate|auto].
Qed.
