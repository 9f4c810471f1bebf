(** * FalcoFacts2: whole policies: scopes, order, options. *)
From Coq Require Import Lia.
From Verif Require Import GoBase GoFacts Predicates SpecStrings PolicyFacts FalcoModel SpecFalco FalcoFacts.

(** ** item lists *)
Lemma split_last_end c s : split_last c (s ++ String c "") = Some (s, "").
Proof.
  induction s as [|a s IH]; simpl.
  - rewrite Ascii.eqb_refl. reflexivity.
  - rewrite IH. reflexivity.
Qed.
Lemma sapp_assoc (a b c : string) : (a ++ b ++ c = (a ++ b) ++ c)%string.
Proof. induction a; simpl; congruence. Qed.
Lemma sapp_nil (a : string) : (a ++ "" = a)%string.
Proof. induction a; simpl; congruence. Qed.
Lemma strip_items it : strip_brackets (items_text it) = (join "," (it_atoms it) ++ (if it_trail it then "," else ""))%string.
Proof.
  unfold items_text, strip_brackets. simpl. rewrite sapp_assoc, split_last_end, sapp_nil. reflexivity.
Qed.
Lemma join_snoc_empty l : l <> [] -> (join "," l ++ ",")%string = join "," (l ++ [""]).
Proof.
  induction l as [|a l IH]; [congruence|]. intros _. destruct l as [|b l].
  - simpl. reflexivity.
  - change ((a ++ "," ++ join "," (b :: l)) ++ "," = a ++ "," ++ join "," ((b :: l) ++ [""]))%string.
    rewrite <- IH by discriminate. rewrite !sapp_assoc. reflexivity.
Qed.
Lemma extract_items_exact l : l <> [] -> Forall comma_free l ->
  extract_items (mkItems l false) = map trim_bounding_quotes l.
Proof.
  intros Hn Hc. unfold extract_items, extract_list. rewrite strip_items. simpl. rewrite sapp_nil.
  rewrite split_join; auto. intros y Hy. apply comma_free_has. rewrite Forall_forall in Hc; auto.
Qed.
Lemma extract_items_trailing l : l <> [] -> Forall comma_free l ->
  extract_items (mkItems l true) = map trim_bounding_quotes l ++ [""].
Proof.
  intros Hn Hc. unfold extract_items, extract_list. rewrite strip_items. simpl.
  rewrite join_snoc_empty by auto. rewrite split_join.
  - rewrite map_app. reflexivity.
  - destruct l; discriminate.
  - intros y Hy. apply in_app_iff in Hy as [Hy|[<-|[]]]; [|reflexivity].
    apply comma_free_has. rewrite Forall_forall in Hc; auto.
Qed.
Lemma extract_items_empty : extract_items (mkItems [] false) = [""].
Proof. reflexivity. Qed.

(** ** definitions *)
Lemma last_def_app {V} (def : decl -> option (string * V)) x a b :
  last_def def x (a ++ b) = orelse (last_def def x b) (last_def def x a).
Proof.
  induction a as [|d a IH]; simpl.
  - destruct (last_def def x b); reflexivity.
  - rewrite IH. destruct (last_def def x b); simpl; auto.
Qed.

Section Files.
Context {R : Type}.
Variable ops : operations R.
Implicit Types st : cstate R.

(** The maps of [st] hold the last definitions of [ds]. *)
Definition env_is st (ms : string -> option expr) (ls : string -> option (list string)) : Prop :=
  (forall x, mget x (cs_macros st) = ms x) /\ (forall x, mget x (cs_lists st) = ls x).

Lemma def_step_env st d ms ls : env_is st ms ls ->
  env_is (def_step st d) (fun x => orelse (last_def macro_def x [d]) (ms x)) (fun x => orelse (last_def list_def x [d]) (ls x)).
Proof.
  intros [Hm Hl]. destruct d; simpl; split; intros y; simpl; auto.
  - unfold mset. simpl. destruct (seqb y x); simpl; auto.
  - unfold mset. simpl. destruct (seqb y x); simpl; auto.
Qed.
Lemma def_fold_env ds : forall st ms ls, env_is st ms ls ->
  env_is (fold_left def_step ds st) (fun x => orelse (last_def macro_def x ds) (ms x)) (fun x => orelse (last_def list_def x ds) (ls x)).
Proof.
  induction ds as [|d ds IH]; intros st ms ls He; simpl.
  - destruct He; split; auto.
  - destruct (IH _ _ _ (def_step_env st d ms ls He)) as [Hm Hl]. split; intros x.
    + rewrite Hm. simpl. destruct (last_def macro_def x ds); reflexivity.
    + rewrite Hl. simpl. destruct (last_def list_def x ds); reflexivity.
Qed.
Lemma def_fold_rules ds : forall st, cs_rules (fold_left def_step ds st) = cs_rules st /\ cs_filters (fold_left def_step ds st) = cs_filters st.
Proof.
  induction ds as [|d ds IH]; intros st; simpl; auto.
  destruct (IH (def_step st d)) as [-> ->]. destruct d; auto.
Qed.

Lemma policy_step_env n st st' d ms ls : env_is st ms ls -> policy_step ops n st d = Ok st' ->
  env_is st' (fun x => orelse (last_def macro_def x [d]) (ms x)) (fun x => orelse (last_def list_def x [d]) (ls x)).
Proof.
  intros He. destruct d; simpl.
  - destruct (visit_expr ops n _ _ _); simpl; try discriminate. intros H; inversion H; subst. exact He.
  - destruct (visit_expr ops n _ _ _); simpl; try discriminate. intros H; inversion H; subst. exact He.
  - intros H; inversion H; subst. apply (def_step_env st (DMacro x e append)); auto.
  - intros H; inversion H; subst. apply (def_step_env st (DList x it)); auto.
  - intros H; inversion H; subst. exact He.
Qed.

(** ** options *)
Lemma first_opt_spec {A} (f : ropt -> option A) l a : first_opt f l = Some a ->
  exists pre o post, l = pre ++ o :: post /\ f o = Some a /\ forall o', In o' pre -> f o' = None.
Proof.
  induction l as [|o l IH]; simpl; [discriminate|]. destruct (f o) as [b|] eqn:E.
  - intros H; inversion H; subst. exists [], o, l. repeat split; auto. intros o' [].
  - intros H. destruct (IH H) as (pre & o' & post & -> & H1 & H2).
    exists (o :: pre), o', post. repeat split; auto. intros o'' [<-|Hin]; auto.
Qed.
Lemma first_opt_none {A} (f : ropt -> option A) l : first_opt f l = None -> forall o, In o l -> f o = None.
Proof.
  induction l as [|o l IH]; simpl; intros H o' Hin; [tauto|]. destruct (f o) eqn:E; [discriminate|].
  destruct Hin as [<-|Hin]; auto.
Qed.
Lemma first_such_unique p l o o' : first_such p l o -> first_such p l o' -> o = o'.
Proof.
  intros (pre & post & -> & Hp & Hn) (pre' & post' & He & Hp' & Hn').
  revert pre' Hn' He; induction pre as [|a pre IH]; intros [|a' pre'] Hn' He; simpl in He; inversion He; subst; auto.
  - exfalso. apply (Hn' a'); [left|]; auto.
  - exfalso. apply (Hn o'); [left|]; auto.
  - apply IH with pre'; auto; intros x Hx; [apply Hn|apply Hn']; right; auto.
Qed.

Lemma parse_bool_false s : parse_bool s = Some false <-> In s false_words.
Proof.
  unfold parse_bool, false_words. split.
  - destruct (existsb (seqb s) _); [discriminate|].
    destruct (existsb (seqb s) ["0"; "f"; "F"; "FALSE"; "false"; "False"]) eqn:E; [|discriminate].
    intros _. apply existsb_exists in E as (x & Hx & He). apply seqb_eq in He. subst; auto.
  - intros H. simpl in H. repeat destruct H as [<-|H]; try reflexivity. destruct H.
Qed.
Lemma enabled_flag_off s : enabled_flag s = false <-> off_word s.
Proof.
  unfold enabled_flag, off_word. rewrite <- parse_bool_false.
  destruct (parse_bool _) as [[]|]; split; congruence.
Qed.

Lemma get_enabled_spec l : get_enabled l = false <-> exists s, first_such is_enabled_opt l (OEnabled s) /\ off_word s.
Proof.
  unfold get_enabled. destruct (first_opt _ l) as [s|] eqn:E.
  - apply first_opt_spec in E as (pre & o & post & -> & Ho & Hn).
    assert (o = OEnabled s) by (destruct o; inversion Ho; auto). subst o.
    assert (F : first_such is_enabled_opt (pre ++ OEnabled s :: post) (OEnabled s)).
    { exists pre, post. repeat split; [exists s; auto|]. intros o' Hin [s' ->]. apply Hn in Hin. discriminate. }
    rewrite enabled_flag_off. split.
    + intros H. exists s; auto.
    + intros (s' & H1 & H2). pose proof (first_such_unique _ _ _ _ F H1) as Heq. inversion Heq; subst; auto.
  - split; [discriminate|]. intros (s & (pre & post & -> & _ & _) & _).
    pose proof (first_opt_none _ _ E (OEnabled s)) as K. rewrite in_app_iff in K. simpl in K. discriminate K; auto.
Qed.

Lemma severity_priority_spec s :
  (severity_priority s = PHigh <-> In (to_lower s) high_words) /\
  (severity_priority s = PMedium <-> In (to_lower s) medium_words) /\
  (severity_priority s = PHigh \/ severity_priority s = PMedium \/ severity_priority s = PLow).
Proof.
  unfold severity_priority; cbn [prio_string]. generalize (to_lower s); intros w. unfold high_words, medium_words. simpl In.
  repeat match goal with
  | |- context [seqb w ?k] => let E := fresh "E" in destruct (seqb w k) eqn:E;
      [apply seqb_eq in E; subst w; repeat split; intros; auto; try discriminate;
       repeat match goal with H : _ \/ _ |- _ => destruct H end; try discriminate; try contradiction
      |apply seqb_neq in E]
  end.
  repeat split; intros; auto; try discriminate;
       repeat match goal with H : _ \/ _ |- _ => destruct H end; try discriminate; try contradiction; congruence.
Qed.
Lemma get_priority_spec l s : first_such is_priority_opt l (OPriority s) -> get_priority l = severity_priority s.
Proof.
  intros F. unfold get_priority. destruct (first_opt _ l) as [s'|] eqn:E.
  - apply first_opt_spec in E as (pre & o & post & -> & Ho & Hn).
    assert (o = OPriority s') by (destruct o; inversion Ho; auto). subst o.
    assert (F' : first_such is_priority_opt (pre ++ OPriority s' :: post) (OPriority s')).
    { exists pre, post. repeat split; [exists s'; auto|]. intros o' Hin [s'' ->]. apply Hn in Hin. discriminate. }
    pose proof (first_such_unique _ _ _ _ F F') as Heq. inversion Heq; auto.
  - destruct F as (pre & post & -> & _ & _).
    pose proof (first_opt_none _ _ E (OPriority s)) as K. rewrite in_app_iff in K. simpl in K. discriminate K; auto.
Qed.
Lemma get_priority_none l : (forall o', In o' l -> ~ is_priority_opt o') -> get_priority l = PLow.
Proof.
  intros H. unfold get_priority. destruct (first_opt _ l) as [s'|] eqn:E; auto.
  apply first_opt_spec in E as (pre & o & post & -> & Ho & Hn).
  exfalso. apply (H o); [apply in_app_iff; right; left; auto|]. destruct o; inversion Ho. eexists; reflexivity.
Qed.

Lemma first_opt_items (k : items -> ropt) (g : ropt -> option items) l :
  (forall it, g (k it) = Some it) -> (forall o it, g o = Some it -> o = k it) ->
  listed k l (match first_opt g l with Some it => extract_items it | None => [] end).
Proof.
  intros Hk Hg. split.
  - intros it F (C1 & C2 & C3). destruct (first_opt g l) as [it'|] eqn:E.
    + apply first_opt_spec in E as (pre & o & post & -> & Ho & Hn). apply Hg in Ho. subst o.
      assert (F' : first_such (fun o => exists it', o = k it') (pre ++ k it' :: post) (k it')).
      { exists pre, post. repeat split; [eauto|]. intros o' Hin [it'' ->]. apply Hn in Hin. rewrite Hk in Hin. discriminate. }
      pose proof (first_such_unique _ _ _ _ F F') as Heq. assert (Some it = Some it') by (rewrite <- !Hk; congruence).
      inversion H; subst it'. destruct it as [at_ tr]. simpl in *. subst tr. apply extract_items_exact; auto.
    + destruct F as (pre & post & -> & _ & _). pose proof (first_opt_none _ _ E (k it)) as K.
      rewrite in_app_iff in K. simpl in K. rewrite Hk in K. discriminate K; auto.
  - intros H. destruct (first_opt g l) as [it'|] eqn:E; auto.
    apply first_opt_spec in E as (pre & o & post & -> & Ho & Hn). apply Hg in Ho. subst o.
    exfalso. apply (H it'). apply in_app_iff; right; left; auto.
Qed.
Lemma get_actions_listed l : listed OActions l (get_actions l).
Proof. apply first_opt_items; auto. intros [] ? H; inversion H; auto. Qed.
Lemma get_prefilter_listed l : listed OPrefilter l (get_prefilter l).
Proof. apply first_opt_items; auto. intros [] ? H; inversion H; auto. Qed.
Lemma get_tags_listed l : exists ts, listed OTags l ts /\ (get_tags l = [] /\ ts = [] \/ get_tags l = [TagList ts]).
Proof.
  eexists. split; [apply (first_opt_items OTags (fun o => match o with OTags it => Some it | _ => None end)); auto;
    intros [] ? H; inversion H; auto|].
  unfold get_tags. destruct (first_opt _ l); auto.
Qed.

(** ** policies *)
Definition good_env (ms : string -> option expr) : Prop := forall x e, ms x = Some e -> expr_plain e = true.

Lemma last_def_plain ds : (forall d, In d ds -> decl_plain d = true) -> good_env (fun x => last_def macro_def x ds).
Proof.
  intros H x e. induction ds as [|d ds IH]; simpl; [discriminate|].
  destruct (last_def macro_def x ds) as [v|] eqn:E.
  - intros He; inversion He; subst. apply IH; auto. intros; apply H; right; auto.
  - destruct d; simpl; try discriminate. destruct (seqb x x0); [|discriminate].
    intros He; inversion He; subst. apply (H (DMacro x0 e append)). left; auto.
Qed.

Lemma policy_walk_ok n earlier whole ds : forall pre st st',
  (forall d, In d (earlier ++ whole) -> decl_plain d = true) -> whole = pre ++ ds ->
  env_is st (visible macro_def earlier pre whole) (visible list_def earlier pre whole) ->
  policy_walk ops n st ds = Ok st' ->
  exists rs fs,
    cs_rules st' = cs_rules st ++ rs /\ cs_filters st' = cs_filters st ++ fs /\
    Forall2 (rule_of ops) (rule_occs (occs_in earlier pre whole ds)) rs /\
    Forall2 (filter_of ops) (filter_occs (occs_in earlier pre whole ds)) fs /\
    env_is st' (visible macro_def earlier whole whole) (visible list_def earlier whole whole).
Proof.
  induction ds as [|d ds IH]; intros pre st st' Hpl Hw He; simpl.
  - intros H; inversion H; subst. exists [], []. rewrite !app_nil_r in *. repeat split; auto; try constructor; apply He.
  - destruct (policy_step ops n st d) as [st1| | |] eqn:E; simpl; try discriminate. intros H.
    assert (Hg : good_env (visible macro_def earlier pre whole)).
    { intros x e. unfold visible, orelse.
      assert (G1 : good_env (fun x => last_def macro_def x pre)).
      { apply last_def_plain. intros; apply Hpl; subst whole; rewrite !in_app_iff; auto. }
      assert (G2 : good_env (fun x => last_def macro_def x whole)).
      { apply last_def_plain. intros; apply Hpl; rewrite !in_app_iff; auto. }
      assert (G3 : good_env (fun x => last_def macro_def x earlier)).
      { apply last_def_plain. intros; apply Hpl; rewrite !in_app_iff; auto. }
      specialize (G1 x e); specialize (G2 x e); specialize (G3 x e); simpl in *.
      destruct (last_def macro_def x pre); auto. destruct (last_def macro_def x whole); auto. }
    assert (He1 : env_is st1 (visible macro_def earlier (pre ++ [d]) whole) (visible list_def earlier (pre ++ [d]) whole)).
    { destruct (policy_step_env _ _ _ _ _ _ He E) as [K1 K2]. split; intros x.
      - rewrite K1. unfold visible. rewrite last_def_app. destruct (last_def macro_def x [d]); reflexivity.
      - rewrite K2. unfold visible. rewrite last_def_app. destruct (last_def list_def x [d]); reflexivity. }
    destruct (IH (pre ++ [d]) st1 st' Hpl ltac:(rewrite <- app_assoc; auto) He1 H) as (rs & fs & H1 & H2 & H3 & H4 & H5).
    destruct d as [d|d|x e ap|x it|v]; simpl in E |- *.
    + destruct (visit_expr ops n (cs_macros st) (cs_lists st) (rd_cond d)) as [c| | |] eqn:Ec; simpl in E; try discriminate.
      inversion E; subst st1; clear E. simpl in *.
      eexists (_ :: rs), fs. split; [rewrite H1, <- app_assoc; reflexivity|]. repeat split; auto; try apply H5.
      constructor; auto. unfold rule_of. simpl. repeat split; auto.
      * intros Hx; apply get_enabled_spec; auto.
      * intros Hx; apply get_enabled_spec; auto.
      * rewrite (get_priority_spec _ _ H0). apply severity_priority_spec.
      * rewrite (get_priority_spec _ _ H0). apply severity_priority_spec.
      * rewrite (get_priority_spec _ _ H0). apply severity_priority_spec.
      * rewrite (get_priority_spec _ _ H0). apply severity_priority_spec.
      * rewrite (get_priority_spec _ _ H0). apply severity_priority_spec.
      * apply get_priority_none.
      * apply get_actions_listed.
      * apply get_actions_listed.
      * apply get_prefilter_listed.
      * apply get_prefilter_listed.
      * apply get_tags_listed.
      * intros rec A Hmod. unfold c_eval. destruct He as [Hm Hl]. eapply visit_expr_sound; eauto.
        assert (Hd : decl_plain (DRule d) = true) by (apply Hpl; subst whole; rewrite !in_app_iff; right; right; left; auto).
        exact Hd.
    + destruct (visit_expr ops n (cs_macros st) (cs_lists st) (fd_cond d)) as [c| | |] eqn:Ec; simpl in E; try discriminate.
      inversion E; subst st1; clear E. simpl in *.
      eexists rs, (_ :: fs). split; auto. split; [rewrite H2, <- app_assoc; reflexivity|]. repeat split; auto; try apply H5.
      constructor; auto. unfold filter_of. simpl. repeat split; auto.
      * intros Hx. destruct (fd_enabled d) as [s|] eqn:Es; [|discriminate]. exists s; split; auto. apply enabled_flag_off; auto.
      * intros (s & Hs & Ho). rewrite Hs. apply enabled_flag_off; auto.
      * intros rec A Hmod. unfold c_eval. destruct He as [Hm Hl]. eapply visit_expr_sound; eauto.
        assert (Hd : decl_plain (DFilter d) = true) by (apply Hpl; subst whole; rewrite !in_app_iff; right; right; left; auto).
        exact Hd.
    + inversion E; subst st1. exists rs, fs. auto.
    + inversion E; subst st1. exists rs, fs. auto.
    + inversion E; subst st1. exists rs, fs. auto.
Qed.

Lemma rule_occs_app a b : rule_occs (a ++ b) = rule_occs a ++ rule_occs b.
Proof. induction a as [|o a IH]; simpl; auto. destruct (oc_decl o); simpl; congruence. Qed.
Lemma filter_occs_app a b : filter_occs (a ++ b) = filter_occs a ++ filter_occs b.
Proof. induction a as [|o a IH]; simpl; auto. destruct (oc_decl o); simpl; congruence. Qed.

Lemma visible_start {V} (def : decl -> option (string * V)) earlier ds x :
  visible def earlier [] ds x = orelse (last_def def x ds) (last_def def x earlier).
Proof. reflexivity. Qed.
Lemma visible_end {V} (def : decl -> option (string * V)) earlier ds x :
  visible def earlier ds ds x = last_def def x (earlier ++ ds).
Proof. unfold visible. rewrite last_def_app. destruct (last_def def x ds); reflexivity. Qed.

Lemma compile_files_ok n : forall fs st earlier rules filters,
  (forall d, In d earlier -> decl_plain d = true) -> files_plain fs ->
  env_is st (fun x => last_def macro_def x earlier) (fun x => last_def list_def x earlier) ->
  compile_files ops n st fs = Ok (Some (rules, filters)) ->
  Forall file_good fs /\
  exists rs fl, rules = cs_rules st ++ rs /\ filters = cs_filters st ++ fl /\
    Forall2 (rule_of ops) (rule_occs (occs earlier fs)) rs /\
    Forall2 (filter_of ops) (filter_occs (occs earlier fs)) fl.
Proof.
  induction fs as [|f fs IH]; intros st earlier rules filters Hpe Hpl He; simpl.
  - intros H; inversion H; subst. split; auto. exists [], []. rewrite !app_nil_r. repeat split; constructor.
  - destruct f as [[ds err]|]; simpl; [|discriminate].
    destruct (policy_walk ops n (fold_left def_step ds st) ds) as [st'| | |] eqn:E; simpl; try discriminate.
    destruct err; [discriminate|]. intros H.
    assert (Hpd : forall d, In d ds -> decl_plain d = true).
    { intros d Hd. apply (Hpl (Some (ds, false)) d); [left; auto|auto]. }
    destruct (policy_walk_ok n earlier ds ds [] (fold_left def_step ds st) st') as (rs & fl & H1 & H2 & H3 & H4 & H5); auto.
    { intros d Hd. apply in_app_iff in Hd as [Hd|Hd]; auto. }
    { apply (def_fold_env ds st _ _ He). }
    destruct (def_fold_rules ds st) as [R1 R2]. rewrite R1 in H1. rewrite R2 in H2.
    destruct (IH st' (earlier ++ ds) rules filters) as (G & rs' & fl' & K1 & K2 & K3 & K4); auto.
    { intros d Hd. apply in_app_iff in Hd as [Hd|Hd]; auto. }
    { intros g d Hg. apply Hpl. right; auto. }
    { destruct H5 as [M5 L5]. split; intros x; [rewrite M5|rewrite L5]; apply visible_end. }
    split; [constructor; [exists ds; auto|auto]|].
    exists (rs ++ rs'), (fl ++ fl'). rewrite rule_occs_app, filter_occs_app.
    repeat split; [rewrite K1, H1, app_assoc; auto|rewrite K2, H2, app_assoc; auto| |]; apply Forall2_app; auto.
Qed.

Lemma compile_ok n fs rules filters :
  files_plain fs -> compile ops n fs = Ok (Some (rules, filters)) ->
  Forall file_good fs /\
  Forall2 (rule_of ops) (rule_occs (occs [] fs)) rules /\
  Forall2 (filter_of ops) (filter_occs (occs [] fs)) filters.
Proof.
  intros Hp H. apply (compile_files_ok n fs cstate0 [] rules filters) in H; auto.
  - destruct H as (G & rs & fl & -> & -> & H1 & H2). auto.
  - split; reflexivity.
Qed.

(** An error in any file suppresses everything. *)
Lemma compile_files_err n : forall fs st o, compile_files ops n st fs = Ok o -> (o = None <-> ~ Forall file_good fs).
Proof.
  induction fs as [|f fs IH]; intros st o; simpl.
  - intros H; inversion H; subst. split; [discriminate|]. intros K; exfalso; apply K; constructor.
  - destruct f as [[ds err]|]; simpl.
    + destruct (policy_walk _ _ _ _) as [st'| | |]; simpl; try discriminate. destruct err.
      * intros H; inversion H; subst. split; auto. intros _ K. inversion K as [|? ? [ds' G] ?]. discriminate.
      * intros H. rewrite (IH _ _ H). split; intros K F; apply K; [inversion F; auto|constructor; auto; exists ds; auto].
    + intros H; inversion H; subst. split; auto. intros _ K. inversion K as [|? ? [ds' G] ?]. discriminate.
Qed.

(** ** termination of the whole compilation *)
Definition op_env (P : string -> Prop) (ms : string -> option expr) : Prop :=
  forall x e a, ms x = Some e -> In a (expr_operands e) -> P a.
Lemma last_def_operands (P : string -> Prop) ds : (forall d a, In d ds -> In a (decl_operands d) -> P a) ->
  op_env P (fun x => last_def macro_def x ds).
Proof.
  intros H x e a. induction ds as [|d ds IH]; simpl; [discriminate|].
  destruct (last_def macro_def x ds) as [v|] eqn:E.
  - intros He; inversion He; subst. apply IH; auto. intros; eapply H; eauto. right; auto.
  - destruct d; simpl; try discriminate. destruct (seqb x x0); [|discriminate].
    intros He; inversion He; subst. apply (H (DMacro x0 e append)). left; auto.
Qed.

Lemma policy_walk_total P (Ht : ops_total ops P) earlier whole ds : forall pre st,
  (forall d a, In d (earlier ++ whole) -> In a (decl_operands d) -> P a) ->
  whole = pre ++ ds ->
  env_is st (visible macro_def earlier pre whole) (visible list_def earlier pre whole) ->
  (forall o, In o (occs_in earlier pre whole ds) -> acyclic (oc_macros o) expr_refs /\ acyclic (oc_lists o) (fun l => l)) ->
  exists n st', (forall m, n <= m -> policy_walk ops m st ds = Ok st') /\
    env_is st' (visible macro_def earlier whole whole) (visible list_def earlier whole whole).
Proof.
  induction ds as [|d ds IH]; intros pre st HP Hw He Ha.
  - exists 0, st. rewrite app_nil_r in Hw; subst pre. split; auto.
  - assert (Hd : exists n st1, forall m, n <= m -> policy_step ops m st d = Ok st1).
    { destruct (Ha (mkOcc earlier pre whole d)) as [A1 A2]; [left; auto|].
      destruct He as [Hm Hl].
      assert (Hg : op_env P (visible macro_def earlier pre whole)).
      { intros x e a. unfold visible, orelse.
        assert (G1 : op_env P (fun x => last_def macro_def x pre)).
        { apply last_def_operands. intros d' a' Hd'; apply HP; subst whole; rewrite !in_app_iff; auto. }
        assert (G2 : op_env P (fun x => last_def macro_def x whole)).
        { apply last_def_operands. intros d' a' Hd'; apply HP; rewrite !in_app_iff; auto. }
        assert (G3 : op_env P (fun x => last_def macro_def x earlier)).
        { apply last_def_operands. intros d' a' Hd'; apply HP; rewrite !in_app_iff; auto. }
        specialize (G1 x e a); specialize (G2 x e a); specialize (G3 x e a); simpl in *.
        destruct (last_def macro_def x pre); auto. destruct (last_def macro_def x whole); auto. }
      assert (Hin : In d (earlier ++ whole)) by (subst whole; rewrite !in_app_iff; right; right; left; auto).
      specialize (HP d) as HPd.
      destruct d as [d|d|x e ap|x it|v]; simpl; try (exists 0; eexists; reflexivity).
      - destruct (visit_expr_total ops (cs_macros st) (cs_lists st) _ _ Hm Hl P Ht Hg A2 A1 (rd_cond d) (fun a => HPd a Hin)) as (n & c & Hn).
        exists n. eexists. intros m Hle. rewrite Hn by lia. reflexivity.
      - destruct (visit_expr_total ops (cs_macros st) (cs_lists st) _ _ Hm Hl P Ht Hg A2 A1 (fd_cond d) (fun a => HPd a Hin)) as (n & c & Hn).
        exists n. eexists. intros m Hle. rewrite Hn by lia. reflexivity. }
    destruct Hd as (n1 & st1 & H1).
    assert (He1 : env_is st1 (visible macro_def earlier (pre ++ [d]) whole) (visible list_def earlier (pre ++ [d]) whole)).
    { destruct (policy_step_env _ _ _ _ _ _ He (H1 n1 ltac:(lia))) as [K1 K2]. split; intros x.
      - rewrite K1. unfold visible. rewrite last_def_app. destruct (last_def macro_def x [d]); reflexivity.
      - rewrite K2. unfold visible. rewrite last_def_app. destruct (last_def list_def x [d]); reflexivity. }
    destruct (IH (pre ++ [d]) st1) as (n2 & st' & H2 & H3); auto.
    { rewrite <- app_assoc; auto. }
    { intros o Ho. apply Ha. right; auto. }
    exists (Nat.max n1 n2), st'. split; auto. intros m Hm. simpl. rewrite H1 by lia. simpl. apply H2; lia.
Qed.

Lemma compile_files_total P (Ht : ops_total ops P) : forall fs st earlier,
  (forall d a, In d earlier -> In a (decl_operands d) -> P a) -> files_operands P fs ->
  env_is st (fun x => last_def macro_def x earlier) (fun x => last_def list_def x earlier) ->
  (forall o, In o (occs earlier fs) -> acyclic (oc_macros o) expr_refs /\ acyclic (oc_lists o) (fun l => l)) ->
  exists n out, forall m, n <= m -> compile_files ops m st fs = Ok out.
Proof.
  induction fs as [|f fs IH]; intros st earlier HPe HP He Ha; simpl.
  - exists 0. eexists; reflexivity.
  - destruct f as [[ds err]|]; simpl; [|exists 0; eexists; reflexivity].
    assert (HPd : forall d a, In d ds -> In a (decl_operands d) -> P a).
    { intros d a Hd. apply (HP (Some (ds, err)) d a); [left; auto|auto]. }
    destruct (policy_walk_total P Ht earlier ds ds [] (fold_left def_step ds st)) as (n1 & st' & H1 & H2); auto.
    { intros d a Hd. apply in_app_iff in Hd as [Hd|Hd]; eauto. }
    { apply (def_fold_env ds st _ _ He). }
    { intros o Ho. apply Ha. simpl. apply in_app_iff; auto. }
    destruct err.
    + exists n1, None. intros m Hm. rewrite H1 by lia. reflexivity.
    + destruct (IH st' (earlier ++ ds)) as (n2 & out & H3).
      { intros d a Hd. apply in_app_iff in Hd as [Hd|Hd]; eauto. }
      { intros g d a Hg. apply HP. right; auto. }
      { destruct H2 as [M5 L5]. split; intros x; [rewrite M5|rewrite L5]; apply visible_end. }
      { intros o Ho. apply Ha. simpl. apply in_app_iff; auto. }
      exists (Nat.max n1 n2), out. intros m Hm. rewrite H1 by lia. simpl. apply H3; lia.
Qed.
Lemma compile_total P (Ht : ops_total ops P) fs :
  files_operands P fs ->
  (forall o, In o (occs [] fs) -> acyclic (oc_macros o) expr_refs /\ acyclic (oc_lists o) (fun l => l)) ->
  exists n out, forall m, n <= m -> compile ops m fs = Ok out.
Proof. intros HP. apply (compile_files_total P); auto; [intros d a []|split; reflexivity]. Qed.
End Files.
