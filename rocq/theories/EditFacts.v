(** * EditFacts: how edits of a policy change what records are told. *)
From Coq Require Import Lia.
From Verif Require Import GoBase GoFacts Predicates FlatRecord FalcoModel SpecFalco SpecFlat FalcoFacts FalcoFacts2 EngineModel EngineFlat SpecEngine SpecEngineFlat
  EngineFacts2 PoolModel SpecPool PoolFacts4 MonitorModel SpecMonitor SigmaModel SpecLexer InitModel SpecInit InitFacts SpecEdit.
Local Open Scope list_scope.

(** ** Conditions under environments that agree on the names they use *)
Section Agree.
Variables (S T : string -> Prop) (ma mb : string -> option expr) (la lb : string -> option (list string)) (A : atomic).
Hypothesis Am : forall x, S x -> ma x = mb x.
Hypothesis Al : forall x, T x -> la x = lb x.
Hypothesis Cm : forall x e, S x -> ma x = Some e -> (forall y, In y (expr_refs e) -> S y) /\ (forall y, In y (expr_items e) -> T y).
Hypothesis Cl : forall x l, T x -> la x = Some l -> forall y, In y l -> T y.

Lemma expands_agree :
  (forall x ys, expands la x ys -> T x -> expands lb x ys) /\
  (forall l ys, expands_all la l ys -> (forall x, In x l -> T x) -> expands_all lb l ys).
Proof.
  apply expands_both.
  - intros x H Hx. apply ex_leaf. rewrite <- (Al _ Hx). exact H.
  - intros x l ys H _ IH Hx. apply ex_list with l; [rewrite <- (Al _ Hx); exact H|]. apply IH. exact (Cl x l Hx H).
  - intros _. constructor.
  - intros x l ys zs _ IH1 _ IH2 H. constructor; [apply IH1, H; now left|apply IH2; intros y Hy; apply H; now right].
Qed.
Lemma args_agree a : forall ys, arg_items la a ys -> (forall y, In y (concat (map arg_names a)) -> T y) -> arg_items lb a ys.
Proof.
  induction a as [|x a IH]; intros ys H Ht; inversion H; subst; cbn [map concat arg_names] in Ht.
  - constructor.
  - constructor; [apply expands_agree; [assumption|apply Ht; now left]|apply IH; [assumption|intros y Hy; apply Ht; apply in_or_app; now right]].
  - constructor; [apply expands_agree; [assumption|intros y Hy; apply Ht; apply in_or_app; now left]|apply IH; [assumption|intros y Hy; apply Ht; apply in_or_app; now right]].
Qed.
Lemma ev_agree :
  (forall t v, tv ma la A t v -> (forall y, In y (term_refs t) -> S y) -> (forall y, In y (term_items t) -> T y) -> tv mb lb A t v) /\
  (forall e v, ev ma la A e v -> (forall y, In y (expr_refs e) -> S y) -> (forall y, In y (expr_items e) -> T y) -> ev mb lb A e v) /\
  (forall c v, cv ma la A c v -> (forall y, In y (concat (map term_refs c)) -> S y) -> (forall y, In y (concat (map term_items c)) -> T y) -> cv mb lb A c v).
Proof.
  apply tv_ev_cv.
  - intros x e v Hx _ IH Hs Ht. assert (Sx : S x) by (apply Hs; now left). destruct (Cm x e Sx Hx) as [C1 C2].
    apply tv_macro with e; [rewrite <- (Am _ Sx); exact Hx|auto].
  - intros x Hx Hs Ht. apply tv_unresolved. rewrite <- (Am x); [exact Hx|apply Hs; now left].
  - intros t v _ IH Hs Ht. constructor. auto.
  - intros a v H Hs Ht. constructor. exact H.
  - intros l op r v H Hs Ht. constructor. exact H.
  - intros a args ys v H E Hs Ht. apply tv_in with ys; [|exact E]. apply args_agree; auto.
  - intros a args ys v H E Hs Ht. apply tv_pmatch with ys; [|exact E]. apply args_agree; auto.
  - intros e v _ IH Hs Ht. constructor. apply IH; auto.
  - intros _ _. constructor.
  - intros c e vc ve _ IH1 _ IH2 Hs Ht. unfold expr_refs, expr_items in *. cbn [map concat] in *.
    constructor; [apply IH1|apply IH2]; intros y Hy; (apply Hs || apply Ht); apply in_or_app; auto.
  - intros _ _. constructor.
  - intros t c vt vc _ IH1 _ IH2 Hs Ht. cbn [map concat] in *.
    constructor; [apply IH1|apply IH2]; intros y Hy; (apply Hs || apply Ht); apply in_or_app; auto.
Qed.
End Agree.

(** ** Inlining *)
Scheme inlined_mind := Minimality for inlined Sort Prop
with inlined_e_mind := Minimality for inlined_e Sort Prop
with inlined_c_mind := Minimality for inlined_c Sort Prop.
Combined Scheme inlined_all from inlined_mind, inlined_e_mind, inlined_c_mind.
Lemma inline_ev macros lists A :
  (forall t t', inlined macros t t' -> forall v, tv macros lists A t v <-> tv macros lists A t' v) /\
  (forall e e', inlined_e macros e e' -> forall v, ev macros lists A e v <-> ev macros lists A e' v) /\
  (forall c c', inlined_c macros c c' -> forall v, cv macros lists A c v <-> cv macros lists A c' v).
Proof.
  apply inlined_all.
  - intros t v. reflexivity.
  - intros x e Hx v. split; intros H; inversion H; subst.
    + constructor. assert (e0 = e) by congruence. now subst.
    + congruence.
    + apply tv_macro with e; assumption.
  - intros t t' _ IH v. split; intros H; inversion H; subst; constructor; now apply IH.
  - intros e e' _ IH v. split; intros H; inversion H; subst; constructor; now apply IH.
  - reflexivity.
  - intros c c' e e' _ I1 _ I2 v. split; intros H; inversion H; subst; constructor; now (apply I1 || apply I2).
  - reflexivity.
  - intros t t' c c' _ I1 _ I2 v. split; intros H; inversion H; subst; constructor; now (apply I1 || apply I2).
Qed.

(** ** Occurrences *)
Lemma occs_in_app e w a b : forall pre, occs_in e pre w (a ++ b) = occs_in e pre w a ++ occs_in e (pre ++ a) w b.
Proof.
  induction a as [|x a IH]; intros pre; cbn [occs_in app]; [now rewrite app_nil_r|]. rewrite IH, <- app_assoc. reflexivity.
Qed.
Notation readings := (map (fun ds => Some (ds, false))).
Lemma occs_app a b : forall e, occs e (readings (a ++ b)) = occs e (readings a) ++ occs (e ++ concat a) (readings b).
Proof.
  induction a as [|x a IH]; intros e; cbn [map app occs concat file_decls]; [now rewrite app_nil_r|]. rewrite IH, !app_assoc. reflexivity.
Qed.
Lemma rule_occs_app a b : rule_occs (a ++ b) = rule_occs a ++ rule_occs b.
Proof. induction a as [|o a IH]; [reflexivity|]. cbn [rule_occs app]. destruct (oc_decl o); rewrite IH; reflexivity. Qed.
Lemma filter_occs_app a b : filter_occs (a ++ b) = filter_occs a ++ filter_occs b.
Proof. induction a as [|o a IH]; [reflexivity|]. cbn [filter_occs app]. destruct (oc_decl o); rewrite IH; reflexivity. Qed.

Lemma last_def_app {V} (def : decl -> option (string * V)) x a b : last_def def x (a ++ b) = orelse (last_def def x b) (last_def def x a).
Proof.
  induction a as [|d a IH]; cbn [last_def app]; [now destruct (last_def def x b)|]. rewrite IH.
  destruct (last_def def x b); [reflexivity|]. cbn [orelse]. reflexivity.
Qed.
Lemma last_def_in {V} (def : decl -> option (string * V)) x l v : last_def def x l = Some v -> exists d, In d l /\ def d = Some (x, v).
Proof.
  induction l as [|d l IH]; cbn [last_def]; [discriminate|]. destruct (last_def def x l) as [w|].
  - intros E. destruct (IH E) as (d' & H1 & H2). exists d'. split; [now right|exact H2].
  - intros E. exists d. split; [now left|]. destruct (def d) as [[y w]|]; [|discriminate]. destruct (seqb x y) eqn:Q; [|discriminate]. apply seqb_eq in Q. congruence.
Qed.
Section Same.
Variables S T : string -> Prop.
Definition eqd (a b : list decl) : Prop :=
  (forall x, S x -> last_def macro_def x a = last_def macro_def x b) /\ (forall x, T x -> last_def list_def x a = last_def list_def x b).
Definition same (a b : occurrence) : Prop :=
  oc_decl a = oc_decl b /\ (forall x, S x -> oc_macros a x = oc_macros b x) /\ (forall x, T x -> oc_lists a x = oc_lists b x).
Lemma eqd_refl a : eqd a a. Proof. split; reflexivity. Qed.
Lemma eqd_app a b c d : eqd a b -> eqd c d -> eqd (a ++ c) (b ++ d).
Proof. intros [H1 H2] [H3 H4]. split; intros x Hx; rewrite !last_def_app; [rewrite H1, H3|rewrite H2, H4]; auto. Qed.
Lemma occs_in_same e e' w w' ds : eqd e e' -> eqd w w' -> forall pre pre', eqd pre pre' -> Forall2 same (occs_in e pre w ds) (occs_in e' pre' w' ds).
Proof.
  intros He Hw. induction ds as [|d ds IH]; intros pre pre' Hp; cbn [occs_in]; constructor.
  - split; [reflexivity|]. destruct He as [E1 E2], Hw as [W1 W2], Hp as [P1 P2].
    split; intros x Hx; unfold oc_macros, oc_lists, visible; cbn [oc_earlier oc_pre oc_whole].
    + rewrite E1, W1, P1 by assumption. reflexivity.
    + rewrite E2, W2, P2 by assumption. reflexivity.
  - apply IH. apply eqd_app; [assumption|apply eqd_refl].
Qed.
Lemma occs_same fs : forall e e', eqd e e' -> Forall2 same (occs e (readings fs)) (occs e' (readings fs)).
Proof.
  induction fs as [|f fs IH]; intros e e' He; cbn [map occs file_decls]; [constructor|]. apply Forall2_app.
  - apply occs_in_same; [assumption|apply eqd_refl|apply eqd_refl].
  - apply IH, eqd_app; [assumption|apply eqd_refl].
Qed.
Definition same2 {B} (a b : occurrence * B) : Prop := snd a = snd b /\ same (fst a) (fst b).
Lemma rules_same a b : Forall2 same a b -> Forall2 same2 (rule_occs a) (rule_occs b).
Proof.
  induction 1 as [|o o' a b H _ IH]; [constructor|]. cbn [rule_occs]. rewrite <- (proj1 H). destruct (oc_decl o); try exact IH. constructor; [|exact IH]. split; [reflexivity|exact H].
Qed.
Lemma filters_same a b : Forall2 same a b -> Forall2 same2 (filter_occs a) (filter_occs b).
Proof.
  induction 1 as [|o o' a b H _ IH]; [constructor|]. cbn [filter_occs]. rewrite <- (proj1 H). destruct (oc_decl o); try exact IH. constructor; [|exact IH]. split; [reflexivity|exact H].
Qed.
End Same.

(** ** Verdicts *)
Definition told_of (d : ruledecl) : string * string * priority := (rd_name d, rd_desc d, get_priority (rd_opts d)).
Lemma prio_known o d mt : marked (o, d) mt -> m_prio mt = get_priority (rd_opts d).
Proof.
  intros (_ & _ & H1 & H2 & _). destruct (first_opt (fun o => match o with OPriority s => Some s | _ => None end) (rd_opts d)) as [s|] eqn:E.
  - pose proof (first_opt_spec _ _ _ E) as (pre & o' & post & El & Ho & Hn).
    assert (o' = OPriority s) by (destruct o'; inversion Ho; auto). subst o'.
    assert (F : first_such is_priority_opt (rd_opts d) (OPriority s)).
    { exists pre, post. rewrite El. repeat split; [exists s; auto|]. intros o' Hin [s'' ->]. apply Hn in Hin. discriminate. }
    rewrite (get_priority_spec _ _ F). destruct (H1 s F) as (A1 & A2 & A3). pose proof (severity_priority_spec s) as (B1 & B2 & B3).
    destruct A3 as [Q|[Q|Q]], B3 as [W|[W|W]]; rewrite Q, W; try reflexivity; exfalso; rewrite Q in A1, A2; rewrite W in B1, B2; intuition discriminate.
  - rewrite get_priority_none, H2; try reflexivity; intros o' Hin [s ->]; pose proof (first_opt_none _ _ E _ Hin); discriminate.
Qed.
Lemma info_known o d mt : marked (o, d) mt -> info mt = told_of d.
Proof. intros H. unfold info, told_of. rewrite (prio_known o d mt H). destruct H as (-> & -> & _). reflexivity. Qed.

Section V.
Variable X : sfgo_fns.
Variable M : gomap fieldmap.
Variable typ : flatrec -> string.
Notation fires fr := (decl_fires X M typ fr).
Definition said (m : mode) (fired : list (occurrence * ruledecl)) : verdict :=
  match m, fired with AlertMode, [] => None | _, _ => Some (map (fun x => told_of (snd x)) fired) end.
(** [fs] and [rs]: the filters and rules. *)
Definition gives (fs : list (occurrence * filterdecl)) (rs : list (occurrence * ruledecl)) (m : mode) (fr : flatrec) (v : verdict) : Prop :=
  ((exists od, In od fs /\ filter_fires X M fr od) /\ v = None) \/
  (~ (exists od, In od fs /\ filter_fires X M fr od) /\ exists fired, selects (fires fr) rs fired /\ Forall (fun od => exists mt, marked od mt) fired /\ v = said m fired).
Lemma disposed_gives D m r o : disposed X M typ D m r o ->
  gives (filter_occs (declared D)) (rule_occs (declared D)) m (fst r) (told r o) /\ length o <= 1 /\ forall q, In q o -> fst q = fst r.
Proof.
  intros [[H ->]|(H & fired & new & Hs & Hm & C)].
  { split; [left; split; [exact H|reflexivity]|]. split; [cbn; lia|intros q []]. }
  assert (Hex : Forall (fun od => exists mt, marked od mt) fired).
  { clear - Hm. induction Hm as [|a b l l' H _ IH]; constructor; [now exists b|exact IH]. }
  assert (En : map info new = map (fun x => told_of (snd x)) fired).
  { clear - Hm. induction Hm as [|[o d] b l l' H _ IH]; [reflexivity|]. cbn [map snd]. rewrite IH, (info_known o d b H). reflexivity. }
  destruct C as [(-> & -> & ->)|(Hm' & r' & -> & E1 & E2)].
  - split; [right; split; [exact H|]; exists []; repeat split; assumption|]. split; [cbn; lia|intros q []].
  - split; [|split; [cbn; lia|intros q [<-|[]]; exact E1]]. right. split; [exact H|]. exists fired. split; [exact Hs|]. split; [exact Hex|].
    unfold told. rewrite E2, skipn_app, skipn_all, Nat.sub_diag. cbn [skipn app]. rewrite En. unfold said. destruct Hm' as [-> |Hn]; [reflexivity|]. destruct fired; [contradiction|]. now destruct m.
Qed.

(** Lists of declarations that fire alike. *)
Section Alike.
Context {A I : Type} (F : A -> Prop) (g : A -> I).
Definition alike (a b : A) : Prop := g a = g b /\ (F a <-> F b).
Lemma sel_alike l l' : Forall2 alike l l' -> forall s s', selects F l s -> selects F l' s' -> map g s = map g s'.
Proof.
  induction 1 as [|a b l l' [H1 H2] _ IH]; intros s s' Hs Hs'; inversion Hs; subst; inversion Hs'; subst; try tauto; cbn [map].
  - f_equal; auto.
  - auto.
Qed.
Lemma drop_alike l l' : Forall2 alike l l' -> ((exists a, In a l /\ F a) <-> (exists a, In a l' /\ F a)).
Proof.
  induction 1 as [|a b l l' [_ H2] _ IH]; [split; intros (? & [] & _)|].
  split; intros (c & [<-|Hc] & Fc).
  - exists b. split; [now left|tauto].
  - destruct (proj1 IH) as (c' & ? & ?); [eauto|]. exists c'. split; [now right|assumption].
  - exists a. split; [now left|tauto].
  - destruct (proj2 IH) as (c' & ? & ?); [eauto|]. exists c'. split; [now right|assumption].
Qed.
Lemma sel_app a b s : selects F (a ++ b) s -> exists sa sb, s = sa ++ sb /\ selects F a sa /\ selects F b sb.
Proof.
  revert s. induction a as [|x a IH]; intros s H; cbn [app] in H.
  - exists [], s. repeat split; [constructor|assumption].
  - inversion H; subst.
    + destruct (IH _ ltac:(eassumption)) as (sa & sb & -> & K1 & K2). exists (x :: sa), sb. repeat split; [constructor|]; assumption.
    + destruct (IH _ ltac:(eassumption)) as (sa & sb & -> & K1 & K2). exists sa, sb. repeat split; [apply sel_skip|]; assumption.
Qed.
End Alike.

(** ** Firing at places that agree on the names used *)
Definition within (S T : string -> Prop) (d : decl) : Prop :=
  (forall n, uses_macro n d -> S n) /\ (forall n, uses_list n d -> T n).
Definition around (o : occurrence) : list decl := oc_pre o ++ oc_whole o ++ oc_earlier o.
Lemma visible_in {V} (def : decl -> option (string * V)) e p w x v : visible def e p w x = Some v -> exists d, In d (p ++ w ++ e) /\ def d = Some (x, v).
Proof.
  unfold visible. intros H. destruct (last_def def x p) eqn:E1; [cbn [orelse] in H; injection H as <-; destruct (last_def_in _ _ _ _ E1) as (d & ? & ?); exists d; rewrite !in_app_iff; auto|].
  destruct (last_def def x w) eqn:E2; [cbn [orelse] in H; injection H as <-; destruct (last_def_in _ _ _ _ E2) as (d & ? & ?); exists d; rewrite !in_app_iff; auto|].
  cbn [orelse] in H. destruct (last_def_in _ _ _ _ H) as (d & ? & ?); exists d; rewrite !in_app_iff; auto.
Qed.
Section Fire.
Variables S T : string -> Prop.
Lemma ev_same a b A e : same S T a b -> Forall (within S T) (around a) ->
  (forall y, In y (expr_refs e) -> S y) -> (forall y, In y (expr_items e) -> T y) ->
  forall v, ev (oc_macros a) (oc_lists a) A e v <-> ev (oc_macros b) (oc_lists b) A e v.
Proof.
  intros (Hd & Hm & Hl) Hw Hs Ht v. rewrite Forall_forall in Hw.
  assert (Cm : forall x e', oc_macros a x = Some e' -> (forall y, In y (expr_refs e') -> S y) /\ (forall y, In y (expr_items e') -> T y)).
  { intros x e' Hx. apply visible_in in Hx as (d & Hin & Ed). destruct (Hw d Hin) as [W1 W2]. destruct d; try discriminate. cbn in Ed. injection Ed as _ <-. split; intros y Hy; [apply W1|apply W2]; exact Hy. }
  assert (Cl : forall x l, oc_lists a x = Some l -> forall y, In y l -> T y).
  { intros x l Hx y Hy. apply visible_in in Hx as (d & Hin & Ed). destruct (Hw d Hin) as [W1 W2]. destruct d; try discriminate. cbn in Ed. injection Ed as _ <-. apply W2. exact Hy. }
  split; intros H.
  - refine (proj1 (proj2 (ev_agree S T _ _ _ _ A Hm Hl _ _)) e v H Hs Ht); [intros x e' _; apply Cm|intros x l _; apply Cl].
  - refine (proj1 (proj2 (ev_agree S T _ _ _ _ A _ _ _ _)) e v H Hs Ht).
    + intros x Hx. symmetry. auto.
    + intros x Hx. symmetry. auto.
    + intros x e' Hx. rewrite <- Hm by assumption. apply Cm.
    + intros x l Hx. rewrite <- Hl by assumption. apply Cl.
Qed.
Lemma rule_fires_same fr a b d : same S T a b -> Forall (within S T) (around a) -> within S T (DRule d) -> (fires fr (a, d) <-> fires fr (b, d)).
Proof. intros Hs Hw [W1 W2]. unfold decl_fires. rewrite (ev_same a b _ _ Hs Hw W1 W2). reflexivity. Qed.
Lemma filter_fires_same fr a b d : same S T a b -> Forall (within S T) (around a) -> within S T (DFilter d) -> (filter_fires X M fr (a, d) <-> filter_fires X M fr (b, d)).
Proof. intros Hs Hw [W1 W2]. unfold filter_fires. rewrite (ev_same a b _ _ Hs Hw W1 W2). reflexivity. Qed.
Lemma rules_alike fr os os' : Forall2 (same S T) os os' -> Forall (fun o => Forall (within S T) (around o) /\ within S T (oc_decl o)) os ->
  Forall2 (alike (fires fr) (fun x => told_of (snd x))) (rule_occs os) (rule_occs os').
Proof.
  induction 1 as [|o o' os os' H _ IH]; intros W; [constructor|]. inversion W as [|? ? [W1 W2] W']; subst. cbn [rule_occs]. rewrite <- (proj1 H).
  destruct (oc_decl o) eqn:E; auto. constructor; [|auto]. split; [reflexivity|]. apply rule_fires_same; assumption.
Qed.
Lemma filters_alike fr os os' : Forall2 (same S T) os os' -> Forall (fun o => Forall (within S T) (around o) /\ within S T (oc_decl o)) os ->
  Forall2 (alike (filter_fires X M fr) (fun _ => tt)) (filter_occs os) (filter_occs os').
Proof.
  induction 1 as [|o o' os os' H _ IH]; intros W; [constructor|]. inversion W as [|? ? [W1 W2] W']; subst. cbn [filter_occs]. rewrite <- (proj1 H).
  destruct (oc_decl o) eqn:E; auto. constructor; [|auto]. split; [reflexivity|]. apply filter_fires_same; assumption.
Qed.
End Fire.
(** Occurrences see only the declarations of the policy. *)
Lemma occs_in_around (Q : decl -> Prop) e w ds : forall pre, Forall Q e -> Forall Q w -> Forall Q pre -> Forall Q ds ->
  Forall (fun o => Forall Q (around o) /\ Q (oc_decl o)) (occs_in e pre w ds).
Proof.
  induction ds as [|d ds IH]; intros pre He Hw Hp Hd; cbn [occs_in]; [constructor|]. inversion Hd as [|? ? H1 H2]; subst. constructor.
  - split; [|exact H1]. unfold around. cbn. rewrite !Forall_app. auto.
  - apply IH; auto. rewrite Forall_app. auto.
Qed.
Lemma occs_around (Q : decl -> Prop) fs : forall e, Forall Q e -> Forall (Forall Q) fs -> Forall (fun o => Forall Q (around o) /\ Q (oc_decl o)) (occs e (readings fs)).
Proof.
  induction fs as [|f fs IH]; intros e He Hf; cbn [map occs file_decls]; [constructor|]. inversion Hf as [|? ? H1 H2]; subst. rewrite Forall_app. split.
  - apply occs_in_around; auto.
  - apply IH; [rewrite Forall_app; auto|assumption].
Qed.
Lemma all_within fs : Forall (fun o => Forall (within (fun _ => True) (fun _ => True)) (around o) /\ within (fun _ => True) (fun _ => True) (oc_decl o)) fs.
Proof. rewrite Forall_forall. intros o _. split; [rewrite Forall_forall; intros d _|]; split; intros; exact I. Qed.

(** ** The places of the edits *)
Lemma declared_file A W E : declared (A ++ W :: E) = occs [] (readings A) ++ occs_in (concat A) [] W W ++ occs (concat A ++ W) (readings E).
Proof. unfold declared. rewrite occs_app. reflexivity. Qed.
Section Places.
Variables S T : string -> Prop.
Lemma inserted_occs x o D D' : inserted x o D D' -> eqd S T [x] [] ->
  exists P Q P' Q', declared D = P ++ Q /\ declared D' = P' ++ o :: Q' /\ Forall2 (same S T) P P' /\ Forall2 (same S T) Q Q'.
Proof.
  intros [A B C E Ho] Hx. subst o.
  assert (Hw : eqd S T (B ++ C) (B ++ x :: C)).
  { apply eqd_app; [apply eqd_refl|]. change (x :: C) with ([x] ++ C). change C with ([] ++ C) at 1. apply eqd_app; [|apply eqd_refl]. destruct Hx as [H1 H2]. split; intros y Hy; symmetry; auto. }
  exists (occs [] (readings A) ++ occs_in (concat A) [] (B ++ C) B), (occs_in (concat A) B (B ++ C) C ++ occs (concat A ++ B ++ C) (readings E)),
    (occs [] (readings A) ++ occs_in (concat A) [] (B ++ x :: C) B), (occs_in (concat A) (B ++ [x]) (B ++ x :: C) C ++ occs (concat A ++ B ++ x :: C) (readings E)).
  split; [rewrite declared_file, occs_in_app, <- !app_assoc; reflexivity|].
  split; [rewrite declared_file, occs_in_app; cbn [occs_in app]; rewrite <- !app_assoc; cbn [app]; reflexivity|].
  split; (apply Forall2_app; [|]).
  - apply occs_same, eqd_refl.
  - apply occs_in_same; [apply eqd_refl|exact Hw|apply eqd_refl].
  - apply occs_in_same; [apply eqd_refl|exact Hw|]. rewrite <- (app_nil_r B) at 1. apply eqd_app; [apply eqd_refl|]. destruct Hx as [H1 H2]. split; intros y Hy; symmetry; auto.
  - apply occs_same, eqd_app; [apply eqd_refl|exact Hw].
Qed.
Lemma swapped_occs x ox y oy D D' : swapped x ox y oy D D' -> eqd S T [x] [] -> eqd S T [y] [] ->
  exists P Q ox' oy' P' Q', declared D = P ++ ox :: oy :: Q /\ declared D' = P' ++ oy' :: ox' :: Q' /\ oc_decl ox = x /\ oc_decl oy = y /\
    same S T ox ox' /\ same S T oy oy' /\ Forall2 (same S T) P P' /\ Forall2 (same S T) Q Q'.
Proof.
  intros [A B C E Hox Hoy] Hx Hy. subst ox oy.
  assert (Hxy : eqd S T [x; y] [y; x]).
  { change [x; y] with ([x] ++ [y]). change [y; x] with ([y] ++ [x]). destruct Hx as [H1 H2], Hy as [H3 H4].
    split; intros z Hz; rewrite !last_def_app; [rewrite H1, H3|rewrite H2, H4]; auto. }
  assert (Hw : eqd S T (B ++ x :: y :: C) (B ++ y :: x :: C)).
  { apply eqd_app; [apply eqd_refl|]. change (x :: y :: C) with ([x; y] ++ C). change (y :: x :: C) with ([y; x] ++ C). apply eqd_app; [exact Hxy|apply eqd_refl]. }
  assert (Bx : eqd S T B (B ++ [x])).
  { rewrite <- (app_nil_r B) at 1. apply eqd_app; [apply eqd_refl|]. destruct Hx as [H1 H2]. split; intros z Hz; symmetry; auto. }
  assert (By : eqd S T B (B ++ [y])).
  { rewrite <- (app_nil_r B) at 1. apply eqd_app; [apply eqd_refl|]. destruct Hy as [H1 H2]. split; intros z Hz; symmetry; auto. }
  set (W := B ++ x :: y :: C) in *. set (W' := B ++ y :: x :: C) in *.
  exists (occs [] (readings A) ++ occs_in (concat A) [] W B), (occs_in (concat A) ((B ++ [x]) ++ [y]) W C ++ occs (concat A ++ W) (readings E)),
    (mkOcc (concat A) (B ++ [y]) W' x), (mkOcc (concat A) B W' y),
    (occs [] (readings A) ++ occs_in (concat A) [] W' B), (occs_in (concat A) ((B ++ [y]) ++ [x]) W' C ++ occs (concat A ++ W') (readings E)).
  split; [rewrite declared_file; unfold W at 2; rewrite occs_in_app; cbn [occs_in app]; rewrite <- !app_assoc; cbn [app]; reflexivity|].
  split; [rewrite declared_file; unfold W' at 2; rewrite occs_in_app; cbn [occs_in app]; rewrite <- !app_assoc; cbn [app]; reflexivity|].
  split; [reflexivity|]. split; [reflexivity|].
  assert (Hsame : forall pre pre' z, eqd S T pre pre' -> same S T (mkOcc (concat A) pre W z) (mkOcc (concat A) pre' W' z)).
  { intros pre pre' z [P1 P2]. destruct Hw as [W1 W2]. split; [reflexivity|]. split; intros u Hu; unfold oc_macros, oc_lists, visible; cbn [oc_earlier oc_pre oc_whole]; [rewrite P1, W1|rewrite P2, W2]; auto. }
  split; [apply Hsame, By|]. split; [apply Hsame; destruct Bx as [H1 H2]; split; intros z Hz; symmetry; auto|].
  split; (apply Forall2_app; [|]).
  - apply occs_same, eqd_refl.
  - apply occs_in_same; [apply eqd_refl|exact Hw|apply eqd_refl].
  - apply occs_in_same; [apply eqd_refl|exact Hw|]. rewrite <- !app_assoc. apply eqd_app; [apply eqd_refl|exact Hxy].
  - apply occs_same, eqd_app; [apply eqd_refl|exact Hw].
Qed.
Lemma replaced_occs x o y D D' : replaced x o y D D' -> eqd S T [x] [y] ->
  exists P Q o' P' Q', declared D = P ++ o :: Q /\ declared D' = P' ++ o' :: Q' /\ oc_decl o = x /\ oc_decl o' = y /\
    (forall z, S z -> oc_macros o z = oc_macros o' z) /\ (forall z, T z -> oc_lists o z = oc_lists o' z) /\ Forall2 (same S T) P P' /\ Forall2 (same S T) Q Q'.
Proof.
  intros [A B C E Ho] Hx. subst o.
  assert (Hw : eqd S T (B ++ x :: C) (B ++ y :: C)).
  { apply eqd_app; [apply eqd_refl|]. change (x :: C) with ([x] ++ C). change (y :: C) with ([y] ++ C). apply eqd_app; [exact Hx|apply eqd_refl]. }
  set (W := B ++ x :: C) in *. set (W' := B ++ y :: C) in *.
  exists (occs [] (readings A) ++ occs_in (concat A) [] W B), (occs_in (concat A) (B ++ [x]) W C ++ occs (concat A ++ W) (readings E)),
    (mkOcc (concat A) B W' y), (occs [] (readings A) ++ occs_in (concat A) [] W' B), (occs_in (concat A) (B ++ [y]) W' C ++ occs (concat A ++ W') (readings E)).
  split; [rewrite declared_file; unfold W at 2; rewrite occs_in_app; cbn [occs_in app]; rewrite <- !app_assoc; cbn [app]; reflexivity|].
  split; [rewrite declared_file; unfold W' at 2; rewrite occs_in_app; cbn [occs_in app]; rewrite <- !app_assoc; cbn [app]; reflexivity|].
  split; [reflexivity|]. split; [reflexivity|].
  split; [intros z Hz; unfold oc_macros, visible; cbn [oc_earlier oc_pre oc_whole]; rewrite (proj1 Hw); auto|].
  split; [intros z Hz; unfold oc_lists, visible; cbn [oc_earlier oc_pre oc_whole]; rewrite (proj2 Hw); auto|].
  split; (apply Forall2_app; [|]).
  - apply occs_same, eqd_refl.
  - apply occs_in_same; [apply eqd_refl|exact Hw|apply eqd_refl].
  - apply occs_in_same; [apply eqd_refl|exact Hw|]. apply eqd_app; [apply eqd_refl|exact Hx].
  - apply occs_same, eqd_app; [apply eqd_refl|exact Hw].
Qed.
End Places.

(** ** The effects *)
Notation dgives D m fr v := (gives (filter_occs (declared D)) (rule_occs (declared D)) m fr v).
Notation al fr := (alike (fires fr) (fun x : occurrence * ruledecl => told_of (snd x))).
Notation fal fr := (alike (filter_fires X M fr) (fun _ : occurrence * filterdecl => tt)).
Lemma said_eq m s s' : map (fun x => told_of (snd x)) s = map (fun x => told_of (snd x)) s' -> said m s = said m s'.
Proof. unfold said. destruct s, s'; cbn [map]; intros E; try discriminate; [reflexivity|]. rewrite E. destruct m; reflexivity. Qed.
Lemma gives_alike fs rs fs' rs' m fr v v' : Forall2 (fal fr) fs fs' -> Forall2 (al fr) rs rs' -> gives fs rs m fr v -> gives fs' rs' m fr v' -> v' = v.
Proof.
  intros Hf Hr [[H ->]|(H & s & Hs & _ & ->)] [[H' ->]|(H' & s' & Hs' & _ & ->)]; pose proof (drop_alike _ _ _ _ Hf); try tauto.
  symmetry. apply said_eq. eapply sel_alike; eassumption.
Qed.
Definition ALL : string -> Prop := fun _ => True.
Lemma nothing_eqd S T x : defines_nothing x -> eqd S T [x] [].
Proof. destruct x; intros []; split; reflexivity. Qed.
Lemma rule_added_gives D D' d o m fr v v' : inserted (DRule d) o D D' -> dgives D m fr v -> dgives D' m fr v' -> rule_added X M typ D o d m fr v v'.
Proof.
  intros Hi. assert (Eo : oc_decl o = DRule d) by (destruct Hi as [A B C E ->]; reflexivity).
  destruct (inserted_occs ALL ALL _ _ _ _ Hi (nothing_eqd ALL ALL (DRule d) I)) as (P & Q & P' & Q' & E1 & E2 & HP & HQ).
  assert (Hf : Forall2 (fal fr) (filter_occs (declared D)) (filter_occs (declared D'))).
  { rewrite E1, E2, !filter_occs_app. cbn [filter_occs]. rewrite Eo. apply Forall2_app; apply (filters_alike ALL ALL); auto using all_within. }
  pose proof (rules_alike ALL ALL fr _ _ HP (all_within _)) as RP. pose proof (rules_alike ALL ALL fr _ _ HQ (all_within _)) as RQ.
  pose proof (drop_alike _ _ _ _ Hf) as Hd. unfold rule_added, filtered.
  intros [[H ->]|(H & s & Hs & _ & ->)] [[H' ->]|(H' & s' & Hs' & Hm & ->)]; try tauto. right.
  rewrite E1, rule_occs_app in Hs. rewrite E2, rule_occs_app in Hs'. cbn [rule_occs] in Hs'. rewrite Eo in Hs'.
  apply sel_app in Hs as (sa & sb & -> & Ha & Hb). apply sel_app in Hs' as (sa' & sb' & -> & Ha' & Hb').
  pose proof (sel_alike _ _ _ _ RP _ _ Ha Ha') as Ea. inversion Hb' as [|? ? sb'' Hx Hb''|? ? ? Hx Hb'']; subst.
  - right. split; [exact H|]. split; [exact Hx|]. pose proof (sel_alike _ _ _ _ RQ _ _ Hb Hb'') as Eb.
    rewrite Forall_app in Hm. destruct Hm as [_ Hm]. inversion Hm as [|? ? [mt Hmt] _]; subst.
    exists (map (fun x => told_of (snd x)) sa), (map (fun x => told_of (snd x)) sb), mt. split; [exact Hmt|]. rewrite (info_known _ _ _ Hmt). split.
    + unfold said. rewrite map_app. cbn [map snd]. rewrite Ea, Eb. destruct sa', m; reflexivity.
    + unfold said. rewrite map_app. destruct m; [left; reflexivity|]. destruct (sa ++ sb) eqn:Esb; [|left; reflexivity]. apply app_eq_nil in Esb as [-> ->]. right. auto.
  - left. split; [exact H|]. split; [exact Hx|]. pose proof (sel_alike _ _ _ _ RQ _ _ Hb Hb'') as Eb. apply said_eq. rewrite !map_app, Ea, Eb. reflexivity.
Qed.
Lemma filter_added_gives D D' d o m fr v v' : inserted (DFilter d) o D D' -> dgives D m fr v -> dgives D' m fr v' -> filter_added X M D o d m fr v v'.
Proof.
  intros Hi. assert (Eo : oc_decl o = DFilter d) by (destruct Hi as [A B C E ->]; reflexivity).
  destruct (inserted_occs ALL ALL _ _ _ _ Hi (nothing_eqd ALL ALL (DFilter d) I)) as (P & Q & P' & Q' & E1 & E2 & HP & HQ).
  assert (Hr : Forall2 (al fr) (rule_occs (declared D)) (rule_occs (declared D'))).
  { rewrite E1, E2, !rule_occs_app. cbn [rule_occs]. rewrite Eo. apply Forall2_app; apply (rules_alike ALL ALL); auto using all_within. }
  pose proof (drop_alike _ _ _ _ (filters_alike ALL ALL fr _ _ HP (all_within _))) as RP. pose proof (drop_alike _ _ _ _ (filters_alike ALL ALL fr _ _ HQ (all_within _))) as RQ.
  assert (Hd : (exists od, In od (filter_occs (declared D')) /\ filter_fires X M fr od) <-> (exists od, In od (filter_occs (declared D)) /\ filter_fires X M fr od) \/ filter_fires X M fr (o, d)).
  { rewrite E1, E2, !filter_occs_app. cbn [filter_occs]. rewrite Eo. split.
    - intros (od & Hin & Hf). rewrite in_app_iff in Hin. destruct Hin as [Hin|[<-|Hin]]; [|right; exact Hf|].
      + left. destruct (proj2 RP) as (od' & ? & ?); [eauto|]. exists od'. rewrite in_app_iff. auto.
      + left. destruct (proj2 RQ) as (od' & ? & ?); [eauto|]. exists od'. rewrite in_app_iff. auto.
    - intros [(od & Hin & Hf)|Hf]; [|exists (o, d); rewrite in_app_iff; cbn; auto].
      rewrite in_app_iff in Hin. destruct Hin as [Hin|Hin].
      + destruct (proj1 RP) as (od' & ? & ?); [eauto|]. exists od'. rewrite in_app_iff. auto.
      + destruct (proj1 RQ) as (od' & ? & ?); [eauto|]. exists od'. rewrite in_app_iff. cbn. auto. }
  unfold filter_added, filtered.
  intros [[H ->]|(H & s & Hs & _ & ->)] [[H' ->]|(H' & s' & Hs' & Hm & ->)]; try tauto.
  right. left. split; [exact H|]. split; [tauto|]. symmetry. apply said_eq. eapply sel_alike; eassumption.
Qed.
Lemma exchanged_gives D D' dx ox dy oy m fr v v' : swapped (DRule dx) ox (DRule dy) oy D D' -> dgives D m fr v -> dgives D' m fr v' -> exchanged X M typ D ox dx oy dy m fr v v'.
Proof.
  intros Hi. destruct (swapped_occs ALL ALL _ _ _ _ _ _ Hi (nothing_eqd ALL ALL (DRule dx) I) (nothing_eqd ALL ALL (DRule dy) I)) as (P & Q & ox' & oy' & P' & Q' & E1 & E2 & Ex & Ey & Sx & Sy & HP & HQ).
  pose proof (eq_sym (proj1 Sx)) as Ex'. rewrite Ex in Ex'. pose proof (eq_sym (proj1 Sy)) as Ey'. rewrite Ey in Ey'.
  assert (Hf : Forall2 (fal fr) (filter_occs (declared D)) (filter_occs (declared D'))).
  { rewrite E1, E2, !filter_occs_app. cbn [filter_occs]. rewrite Ex, Ey, Ex', Ey'. apply Forall2_app; apply (filters_alike ALL ALL); auto using all_within. }
  pose proof (rules_alike ALL ALL fr _ _ HP (all_within _)) as RP. pose proof (rules_alike ALL ALL fr _ _ HQ (all_within _)) as RQ.
  assert (W : forall d, within ALL ALL d) by (intros d; split; intros; exact I).
  assert (Fx : fires fr (ox, dx) <-> fires fr (ox', dx)) by (apply (rule_fires_same ALL ALL); [exact Sx|rewrite Forall_forall; auto|auto]).
  assert (Fy : fires fr (oy, dy) <-> fires fr (oy', dy)) by (apply (rule_fires_same ALL ALL); [exact Sy|rewrite Forall_forall; auto|auto]).
  pose proof (drop_alike _ _ _ _ Hf) as Hd. unfold exchanged, filtered.
  intros [[H ->]|(H & s & Hs & Hm & ->)] [[H' ->]|(H' & s' & Hs' & _ & ->)]; try tauto. right.
  rewrite E1, rule_occs_app in Hs. rewrite E2, rule_occs_app in Hs'. cbn [rule_occs] in Hs, Hs'. rewrite Ex, Ey in Hs. rewrite Ex', Ey' in Hs'.
  apply sel_app in Hs as (sa & sb & -> & Ha & Hb). apply sel_app in Hs' as (sa' & sb' & -> & Ha' & Hb').
  pose proof (sel_alike _ _ _ _ RP _ _ Ha Ha') as Ea.
  inversion Hb as [|? ? s1 Hx1 Hb1|? ? ? Hx1 Hb1]; subst; inversion Hb1 as [|? ? s2 Hy1 Hb2|? ? ? Hy1 Hb2]; subst;
    (inversion Hb' as [|? ? t1 Hy1' Hb1'|? ? ? Hy1' Hb1']; subst; [|]); (inversion Hb1' as [|? ? t2 Hx1' Hb2'|? ? ? Hx1' Hb2']; subst; [|]); try tauto;
    pose proof (sel_alike _ _ _ _ RQ _ _ Hb2 Hb2') as Eb.
  1:{ right. split; [exact H|]. split; [split; assumption|]. rewrite Forall_app in Hm. destruct Hm as [_ Hm]. inversion Hm as [|? ? [mx Hmx] Hm']; subst. inversion Hm' as [|? ? [my Hmy] _]; subst.
    exists (map (fun x => told_of (snd x)) sa), mx, my, (map (fun x => told_of (snd x)) s2). split; [exact Hmx|]. split; [exact Hmy|].
    rewrite (info_known _ _ _ Hmx), (info_known _ _ _ Hmy). unfold said. rewrite !map_app. cbn [map snd]. rewrite <- Ea, <- Eb. split; [destruct sa, m; reflexivity|]. destruct sa', m; reflexivity. }
  all: left; split; [exact H|]; split; [tauto|]; apply said_eq; rewrite !map_app; cbn [map snd]; rewrite Ea, Eb; reflexivity.
Qed.

(** A rule and a filter, or two filters, change places. *)
Definition no_rule (x : decl) : Prop := forall d, x <> DRule d.
Lemma swap_filter_gives D D' x ox y oy m fr v v' : defines_nothing x -> defines_nothing y -> no_rule x \/ no_rule y ->
  swapped x ox y oy D D' -> dgives D m fr v -> dgives D' m fr v' -> no_effect m fr v v'.
Proof.
  intros Nx Ny Hor Hi. destruct (swapped_occs ALL ALL _ _ _ _ _ _ Hi (nothing_eqd ALL ALL _ Nx) (nothing_eqd ALL ALL _ Ny)) as (P & Q & ox' & oy' & P' & Q' & E1 & E2 & Ex & Ey & Sx & Sy & HP & HQ).
  pose proof (eq_sym (proj1 Sx)) as Ex'. rewrite Ex in Ex'. pose proof (eq_sym (proj1 Sy)) as Ey'. rewrite Ey in Ey'.
  assert (W : forall d, within ALL ALL d) by (intros d; split; intros; exact I).
  assert (Hr : Forall2 (al fr) (rule_occs (declared D)) (rule_occs (declared D'))).
  { assert (H1 : forall u, rule_occs (ox :: oy :: u) = rule_occs (oy :: ox :: u)).
    { intros u. cbn [rule_occs]. rewrite Ex, Ey. destruct Hor as [Hn|Hn]; destruct x, y; try reflexivity; edestruct Hn; reflexivity. }
    rewrite E1, E2, !rule_occs_app, H1, <- !rule_occs_app. apply (rules_alike ALL ALL); [|apply all_within]. apply Forall2_app; [assumption|]. constructor; [assumption|]. constructor; assumption. }
  assert (Hd : (exists od, In od (filter_occs (declared D)) /\ filter_fires X M fr od) <-> (exists od, In od (filter_occs (declared D')) /\ filter_fires X M fr od)).
  { assert (K : Forall2 (fal fr) (filter_occs (P ++ oy :: ox :: Q)) (filter_occs (declared D'))).
    { rewrite E2. apply (filters_alike ALL ALL); [|apply all_within]. apply Forall2_app; [assumption|]. constructor; [assumption|]. constructor; assumption. }
    rewrite <- (drop_alike _ _ _ _ K). rewrite E1.
    assert (Hin : forall od, In od (filter_occs (P ++ ox :: oy :: Q)) <-> In od (filter_occs (P ++ oy :: ox :: Q))).
    { intros od. rewrite !filter_occs_app, !in_app_iff. cbn [filter_occs]. destruct (oc_decl ox), (oc_decl oy); cbn [In]; tauto. }
    split; intros (od & H1 & H2); exists od; (split; [apply Hin|]; assumption). }
  intros [[H ->]|(H & s & Hs & _ & ->)] [[H' ->]|(H' & s' & Hs' & _ & ->)]; try tauto; [reflexivity|].
  symmetry. apply said_eq. eapply sel_alike; eassumption.
Qed.

(** Definitions nobody uses. *)
Lemma unused_gives D D' x o m fr v v' : unused x D -> inserted x o D D' -> dgives D m fr v -> dgives D' m fr v' -> no_effect m fr v v'.
Proof.
  intros Hu Hi.
  set (S := fun n => match x with DMacro y _ _ => n <> y | _ => True end). set (T := fun n => match x with DList y _ => n <> y | _ => True end).
  assert (Nx : eqd S T [x] []).
  { unfold S, T. split; intros n Hn; cbn [last_def orelse]; destruct x; try contradiction; cbn [macro_def list_def]; try reflexivity; apply seqb_neq in Hn; now rewrite Hn. }
  assert (Ww : Forall (Forall (within S T)) D).
  { rewrite Forall_forall. intros ds Hds. rewrite Forall_forall. intros d Hd. unfold within, S, T. destruct x as [| | | |]; try contradiction; cbn [unused] in Hu.
    all: split; intros n' Hn'; try exact I; intros ->; exact (Hu ds d Hds Hd Hn'). }
  pose proof (occs_around _ D [] (Forall_nil _) Ww) as Wo. fold (declared D) in Wo.
  destruct (inserted_occs S T _ _ _ _ Hi Nx) as (P & Q & P' & Q' & E1 & E2 & HP & HQ).
  assert (Eo : oc_decl o = x) by (destruct Hi as [A B C E ->]; reflexivity).
  rewrite E1 in Wo. apply Forall_app in Wo as [WP WQ].
  intros G G'. apply (gives_alike (filter_occs (declared D)) (rule_occs (declared D)) (filter_occs (declared D')) (rule_occs (declared D')) m fr); [| |exact G|exact G'].
  - rewrite E1, E2, !filter_occs_app. cbn [filter_occs]. rewrite Eo. destruct x; try contradiction; (apply Forall2_app; apply (filters_alike S T); assumption).
  - rewrite E1, E2, !rule_occs_app. cbn [rule_occs]. rewrite Eo. destruct x; try contradiction; (apply Forall2_app; apply (rules_alike S T); assumption).
Qed.

(** Macros written out. *)
Lemma inlined_gives D D' x o y m fr v v' : inlined_in o x y -> replaced x o y D D' -> dgives D m fr v -> dgives D' m fr v' -> no_effect m fr v v'.
Proof.
  intros Hn Hi. assert (Nx : eqd ALL ALL [x] [y]) by (destruct Hn; split; reflexivity).
  destruct (replaced_occs ALL ALL _ _ _ _ _ Hi Nx) as (P & Q & o' & P' & Q' & E1 & E2 & Ex & Ey & Hm & Hl & HP & HQ).
  assert (W : forall d, within ALL ALL d) by (intros d; split; intros; exact I).
  assert (Ev : forall e e' A u, inlined_e (oc_macros o) e e' -> (ev (oc_macros o) (oc_lists o) A e u <-> ev (oc_macros o') (oc_lists o') A e' u)).
  { intros e e' A u He. rewrite (proj1 (proj2 (inline_ev _ _ A)) e e' He u).
    set (b := mkOcc (oc_earlier o') (oc_pre o') (oc_whole o') (oc_decl o)).
    change (oc_macros o') with (oc_macros b). change (oc_lists o') with (oc_lists b). apply (ev_same ALL ALL); try (intros; exact I).
    - split; [reflexivity|]. split; [exact Hm|exact Hl].
    - rewrite Forall_forall. auto. }
  intros G G'. apply (gives_alike (filter_occs (declared D)) (rule_occs (declared D)) (filter_occs (declared D')) (rule_occs (declared D')) m fr); [| |exact G|exact G'].
  - rewrite E1, E2, !filter_occs_app. apply Forall2_app; [apply (filters_alike ALL ALL); auto using all_within|]. cbn [filter_occs]. rewrite Ex, Ey.
    destruct Hn as [nm ds e e' opts He|nm e e' en He].
    + apply (filters_alike ALL ALL); auto using all_within.
    + constructor; [|apply (filters_alike ALL ALL); auto using all_within]. split; [reflexivity|]. unfold filter_fires. cbn [fd_enabled fd_cond]. rewrite (Ev _ _ _ _ He). reflexivity.
  - rewrite E1, E2, !rule_occs_app. apply Forall2_app; [apply (rules_alike ALL ALL); auto using all_within|]. cbn [rule_occs]. rewrite Ex, Ey.
    destruct Hn as [nm ds e e' opts He|nm e e' en He].
    + constructor; [|apply (rules_alike ALL ALL); auto using all_within]. split; [reflexivity|]. unfold decl_fires. cbn [rd_opts rd_cond]. rewrite (Ev _ _ _ _ He). reflexivity.
    + apply (rules_alike ALL ALL); auto using all_within.
Qed.

(** ** From the policy files *)
Section Lift.
Hypothesis Htyp : map_str X M "sf.type" = Ok typ.
Lemma lift pmatch ord n h h' conf d ah D D' (E : mode -> flatrec -> verdict -> verdict -> Prop) :
  policies_in conf d -> language_is conf Falco -> benign ah -> faithful h d -> faithful h' d -> says h d D -> says h' d D' ->
  (forall m fr v v', dgives D m fr v -> dgives D' m fr v' -> E m fr v v') ->
  compared X M pmatch ord n h h' conf ah E /\ compared_runs X M pmatch ord n h h' conf ah E.
Proof.
  intros Hd Hl Hb Hf Hf' [_ U] [_ U'] HE. split.
  - intros p p' m C C' r.
    destruct (interpreter_texts X M typ Htyp _ _ _ _ _ _ _ m _ Hd Hl Hb Hf C) as (t & ds & T1 & F1 & D1).
    destruct (interpreter_texts X M typ Htyp _ _ _ _ _ _ _ m _ Hd Hl Hb Hf' C') as (t' & ds' & T2 & F2 & D2).
    assert (ds = D) by (apply U; exists t; auto). assert (ds' = D') by (apply U'; exists t'; auto). subst.
    apply HE; [exact (proj1 (disposed_gives _ _ _ _ (D1 r)))|exact (proj1 (disposed_gives _ _ _ _ (D2 r)))].
  - intros m outCh rd rd' cs cs' s s' tr tr' Hmon Hm ND I1 I2 R1 Fn1 R2 Fn2 Et c Hc.
    destruct (plugin_end_to_end X M typ Htyp _ _ _ _ _ _ _ _ _ _ _ _ _ Hd Hl Hmon Hm Hb Hf ND I1 R1 Fn1) as (t & ds & T1 & F1 & D1).
    destruct (plugin_end_to_end X M typ Htyp _ _ _ _ _ _ _ _ _ _ _ _ _ Hd Hl Hmon Hm Hb Hf' ND I2 R2 Fn2) as (t' & ds' & T2 & F2 & D2).
    assert (ds = D) by (apply U; exists t; auto). assert (ds' = D') by (apply U'; exists t'; auto). subst.
    destruct (D1 c Hc) as (os & G1 & P1). destruct (D2 c Hc) as (os' & G2 & P2). rewrite <- Et in G2.
    assert (Z : exists l, map (fun x => fst x) l = taken tr /\ map (fun x => fst (snd x)) l = os /\ map (fun x => snd (snd x)) l = os' /\
      forall r o o', In (r, (o, o')) l -> disposed X M typ D m r o /\ disposed X M typ D' m r o').
    { clear - G1 G2. revert os' G2. induction G1 as [|r o rs os H _ IH]; intros os' G2; inversion G2 as [|? o' ? os2 H1 H2]; subst.
      - exists []. repeat split; intros; contradiction.
      - destruct (IH _ H2) as (l & E1 & E2 & E3 & E4). exists ((r, (o, o')) :: l). cbn [map fst snd]. rewrite E1, E2, E3. repeat split; try (destruct H0 as [E|H0]; [injection E as <- <- <-; assumption|apply (E4 _ _ _ H0)]). }
    destruct Z as (l & E1 & E2 & E3 & E4). exists l. rewrite E2, E3. split; [exact E1|]. split; [exact P1|]. split; [exact P2|].
    intros r o o' Hin. destruct (E4 _ _ _ Hin) as [X1 X2].
    destruct (disposed_gives _ _ _ _ X1) as (G & L & A). destruct (disposed_gives _ _ _ _ X2) as (G' & L' & A').
    split; [exact L|]. split; [exact L'|]. split; [intros q [Hq|Hq]; auto|]. exact (HE _ _ _ _ G G').
Qed.
(** Alerting against enriching. *)
Lemma modes_told pmatch ord n h conf d ah D p r :
  policies_in conf d -> language_is conf Falco -> benign ah -> faithful h d -> says h d D ->
  create_interpreter (sf_ops X M) pmatch ord n h (fst (create_config conf)) = Ok (Some p) ->
  told r (outs (snd (sf_work X M ah AlertMode (fst p) (snd p) r))) =
  match told r (outs (snd (sf_work X M ah EnrichMode (fst p) (snd p) r))) with Some [] => None | v => v end.
Proof.
  intros Hd Hl Hb Hf [_ U] C.
  destruct (interpreter_texts X M typ Htyp _ _ _ _ _ _ _ AlertMode _ Hd Hl Hb Hf C) as (t & ds & T1 & F1 & D1).
  destruct (interpreter_texts X M typ Htyp _ _ _ _ _ _ _ EnrichMode _ Hd Hl Hb Hf C) as (t' & ds' & T2 & F2 & D2).
  assert (ds = D) by (apply U; exists t; auto). assert (ds' = D) by (apply U; exists t'; auto). subst.
  destruct (disposed_gives _ _ _ _ (D1 r)) as [G1 _]. destruct (disposed_gives _ _ _ _ (D2 r)) as [G2 _].
  destruct G1 as [[H ->]|(H & s & Hs & _ & ->)], G2 as [[H' ->]|(H' & s' & Hs' & _ & ->)]; try tauto.
  assert (E : map (fun x => told_of (snd x)) s = map (fun x => told_of (snd x)) s').
  { apply (sel_alike (fires (fst r)) (fun x => told_of (snd x)) (rule_occs (declared D)) (rule_occs (declared D))); [|assumption|assumption].
    generalize (rule_occs (declared D)). intros l. induction l; constructor; [split; [reflexivity|tauto]|assumption]. }
  unfold said. rewrite <- E. destruct s; reflexivity.
Qed.
End Lift.
End V.
