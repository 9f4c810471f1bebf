(** * EvalFacts: proofs about evaluation with panics. *)
From Coq Require Import Lia NArith Permutation.
From Verif Require Import GoBase GoFacts Predicates PolicyFacts FlatRecord FalcoModel SpecStrings SpecFalco FalcoFacts SpecFlat FalcoFacts3 SigmaModel SpecSigma SigmaFacts
  EngineModel EngineFlat EvalModel SpecEval.

(** ** Folding criteria *)
Lemma p_fold_and {R} (cs : list (pcrit R)) : forall a r,
  fold_left p_and cs a r = (let* b := a r in if b then p_all cs r else Ok false).
Proof.
  unfold p_all. induction cs as [|c cs IH]; intros a r; cbn [fold_left].
  - unfold p_true, rbind. now destruct (a r) as [[|]| | |].
  - rewrite IH, (IH (p_and p_true c)). unfold p_and, p_true, rbind. destruct (a r) as [[|]| | |]; reflexivity.
Qed.
Lemma p_all_cons {R} (c : pcrit R) cs r : p_all (c :: cs) r = (let* b := c r in if b then p_all cs r else Ok false).
Proof. unfold p_all at 1. cbn [fold_left]. rewrite p_fold_and. unfold p_and, p_true, rbind. destruct (c r) as [[|]| | |]; reflexivity. Qed.
Lemma p_fold_or {R} (cs : list (pcrit R)) : forall a r,
  fold_left p_or cs a r = (let* b := a r in if b then Ok true else p_any cs r).
Proof.
  unfold p_any. induction cs as [|c cs IH]; intros a r; cbn [fold_left].
  - unfold p_false, rbind. now destruct (a r) as [[|]| | |].
  - rewrite IH, (IH (p_or p_false c)). unfold p_or, p_false, rbind. destruct (a r) as [[|]| | |]; reflexivity.
Qed.
Lemma p_any_cons {R} (c : pcrit R) cs r : p_any (c :: cs) r = (let* b := c r in if b then Ok true else p_any cs r).
Proof. unfold p_any at 1. cbn [fold_left]. rewrite p_fold_or. unfold p_or, p_false, rbind. destruct (c r) as [[|]| | |]; reflexivity. Qed.

(** ** Properties of all compiled conditions *)
Section Closed.
Context {R : Type}.
Variable test : string -> string -> operator -> pcrit R.
Variable mappings : gomap (list string).
Variable pmatch : string -> string -> bool.
Variable Q : pcrit R -> Prop.
Hypothesis Qt : Q p_true.
Hypothesis Qf : Q p_false.
Hypothesis Qand : forall c d, Q c -> Q d -> Q (p_and c d).
Hypothesis Qor : forall c d, Q c -> Q d -> Q (p_or c d).
Hypothesis Qnot : forall c, Q c -> Q (p_not c).
Hypothesis Qtest : forall l r op, Q (test l r op).

Lemma q_all cs : Forall Q cs -> Q (p_all cs).
Proof. unfold p_all. generalize (@p_true R) Qt. induction cs as [|c cs IH]; intros a Ha H; cbn [fold_left]; [assumption|]. inversion H; subst. apply IH; auto. Qed.
Lemma q_any cs : Forall Q cs -> Q (p_any cs).
Proof. unfold p_any. generalize (@p_false R) Qf. induction cs as [|c cs IH]; intros a Ha H; cbn [fold_left]; [assumption|]. inversion H; subst. apply IH; auto. Qed.
Lemma q_rmap {A} (f : A -> res (pcrit R)) l cs : (forall a c, f a = Ok c -> Q c) -> rmap f l = Ok cs -> Forall Q cs.
Proof. intros H E. apply Forall_forall. intros c Hc. destruct (rmap_in_r _ _ _ E c Hc) as (a & _ & Ha). eauto. Qed.
Lemma q_comparators cmps t v : Forall Q (pc_comparators test cmps t v).
Proof.
  induction cmps as [|m cmps IH]; cbn [pc_comparators]; [constructor|].
  unfold pc_comparator. repeat match goal with |- context [seqb m ?k] => destruct (seqb m k); [constructor; auto|] end. assumption.
Qed.
Lemma q_term cmps f v c : pc_term test mappings cmps f v = Ok c -> Q c.
Proof.
  unfold pc_term. intros H. apply rbind_ok in H as (t & _ & H). injection H as <-. apply q_all.
  destruct cmps; [repeat constructor; auto|apply q_comparators].
Qed.
Lemma q_value trs cmps f v c : pc_value test mappings trs cmps f v = Ok c -> Q c.
Proof.
  unfold pc_value. destruct trs as [|t0 ts]; [apply q_term|]. intros H. apply rbind_ok in H as (css & Hc & H). injection H as <-.
  apply q_any. apply Forall_forall. intros c Hi. apply in_concat in Hi as (cs & Hcs & Hi).
  destruct (rmap_in_r _ _ _ Hc cs Hcs) as (t & _ & Ht). apply rbind_ok in Ht as (vs & _ & Ht).
  revert c Hi. apply Forall_forall. apply (q_rmap _ _ _ (fun a c => q_term cmps f a c) Ht).
Qed.
Lemma q_fm fm c : pc_fm test mappings fm = Ok c -> Q c.
Proof.
  unfold pc_fm. intros H. apply rbind_ok in H as (cs & Hc & H). injection H as <-.
  assert (F : Forall Q cs) by (eapply q_rmap; [|exact Hc]; intros a c; apply q_value).
  destruct (fm_all (fm_mods fm)); [apply q_all|apply q_any]; assumption.
Qed.
Lemma q_search s c : pc_search test mappings s = Ok c -> Q c.
Proof.
  unfold pc_search. destruct (se_keywords s); [|intros [= <-]; assumption]. intros H. apply rbind_ok in H as (cs & Hc & H).
  injection H as <-. apply q_all. eapply q_rmap; [|exact Hc]. intros a c; apply q_fm.
Qed.
Lemma q_sexpr searches enum e : forall p c, pc_sexpr test mappings pmatch searches enum p e = Ok c -> Q c.
Proof.
  assert (W : forall (l : list (string * search)) cs, rmap (fun ns => pc_search test mappings (snd ns)) l = Ok cs -> Forall Q cs)
    by (intros l cs; apply q_rmap; intros a c; apply q_search).
  induction e as [n|l IH|l IH|e IH| |pt| |pt|] using sexpr_ind'; intros p c; simpl.
  - destruct (mget n searches); [apply q_search|intros [= <-]; assumption].
  - intros H. apply rbind_ok in H as (cs & Hcs & H). injection H as <-. apply q_all. revert cs Hcs. generalize 0.
    induction IH as [|e l He Hl IHl]; intros i cs Hcs; [injection Hcs as <-; constructor|].
    apply rbind_ok in Hcs as (c & Hc & Hcs). apply rbind_ok in Hcs as (cs' & Hcs & H). injection H as <-. constructor; eauto.
  - intros H. apply rbind_ok in H as (cs & Hcs & H). injection H as <-. apply q_any. revert cs Hcs. generalize 0.
    induction IH as [|e l He Hl IHl]; intros i cs Hcs; [injection Hcs as <-; constructor|].
    apply rbind_ok in Hcs as (c & Hc & Hcs). apply rbind_ok in Hcs as (cs' & Hcs & H). injection H as <-. constructor; eauto.
  - intros H. apply rbind_ok in H as (c0 & Hc & H). injection H as <-. eauto.
  - intros H. apply rbind_ok in H as (cs & Hcs & H). injection H as <-. apply q_any. eauto.
  - intros H. apply rbind_ok in H as (cs & Hcs & H). injection H as <-. apply q_any. eauto.
  - intros H. apply rbind_ok in H as (cs & Hcs & H). injection H as <-. apply q_all. eauto.
  - intros H. apply rbind_ok in H as (cs & Hcs & H). injection H as <-. apply q_all. eauto.
  - intros [= <-]. assumption.
Qed.
End Closed.

(** ** The meaning of a compiled condition *)
Section Run.
Context {R : Type}.
Variable test : string -> string -> operator -> pcrit R.
Variable mappings : gomap (list string).
Variable pmatch : string -> string -> bool.
Variable x : R.
Definition decided (o : res bool) : Prop := o = Panic \/ exists b, o = Ok b.
Hypothesis Htest : forall l r op, decided (test l r op x).
Let tst l r op := test l r op x.

Lemma all_outcome {A} (run : A -> res bool -> Prop) (cs : list (pcrit R)) l :
  Forall2 (fun a c => run a (c x) /\ decided (c x)) l cs -> all_run run l (p_all cs x) /\ decided (p_all cs x).
Proof.
  induction 1 as [|a c l cs [Ha D] _ [IH D']]; [split; [constructor|right; exists true; reflexivity]|].
  rewrite p_all_cons. destruct D as [E|[[|] E]]; rewrite E in *; cbn [rbind].
  - split; [constructor; assumption|now left].
  - split; [apply all_next; assumption|assumption].
  - split; [constructor; assumption|right; eauto].
Qed.
Lemma any_outcome {A} (run : A -> res bool -> Prop) (cs : list (pcrit R)) l :
  Forall2 (fun a c => run a (c x) /\ decided (c x)) l cs -> any_run run l (p_any cs x) /\ decided (p_any cs x).
Proof.
  induction 1 as [|a c l cs [Ha D] _ [IH D']]; [split; [constructor|right; exists false; reflexivity]|].
  rewrite p_any_cons. destruct D as [E|[[|] E]]; rewrite E in *; cbn [rbind].
  - split; [constructor; assumption|now left].
  - split; [constructor; assumption|right; eauto].
  - split; [apply any_next; assumption|assumption].
Qed.
Lemma rmap_outcome {A} (f : A -> res (pcrit R)) (run : A -> res bool -> Prop) l cs : rmap f l = Ok cs ->
  (forall a c, In a l -> f a = Ok c -> run a (c x) /\ decided (c x)) ->
  Forall2 (fun a c => run a (c x) /\ decided (c x)) l cs.
Proof.
  revert cs. induction l as [|a l IH]; intros cs H Hr.
  - injection H as <-. constructor.
  - apply rbind_ok in H as (c & Hc & H). apply rbind_ok in H as (cs' & Hcs & H). injection H as <-.
    constructor; [apply Hr; [now left|assumption]|]. apply IH; [assumption|]. intros a' c' Hi. apply Hr. now right.
Qed.

Lemma comparator_cases m : is_comparator m = true ->
  exists op, mod_op m op /\ (forall t v, pc_comparator test m t v = Some (test t v op)).
Proof.
  unfold is_comparator, comparators_map. cbn [existsb].
  repeat match goal with |- context [seqb m ?k] =>
      let E := fresh "E" in destruct (seqb m k) eqn:E;
        [apply seqb_eq in E; subst m; intros _; eexists; split; [constructor|]; intros t v; reflexivity|] end.
  discriminate.
Qed.
Lemma named_run mods t v : exists l, named mods l /\
  pc_comparators test (fm_comparators mods) t v = map (test t v) l /\ (l = [] <-> fm_comparators mods = []).
Proof.
  induction mods as [|m mods (l & Hl & E & N)].
  - exists []. split; [constructor|]. split; [reflexivity|]. split; reflexivity.
  - unfold fm_comparators in *. cbn [List.filter]. destruct (is_comparator m) eqn:C.
    + destruct (comparator_cases m C) as (op & Ho & Hp). exists (op :: l). split; [constructor; assumption|].
      split; [|split; discriminate]. cbn [pc_comparators map]. rewrite Hp, E. reflexivity.
    + exists l. split; [|split; assumption]. apply nm_skip; [|assumption]. intros op Ho. apply mod_op_comparator in Ho. congruence.
Qed.
Lemma term_outcome mods f v c : pc_term test mappings (fm_comparators mods) f v = Ok c ->
  value_run mappings tst mods f v (c x) /\ decided (c x).
Proof.
  unfold pc_term. intros H. apply rbind_ok in H as (t & Ht & H). injection H as <-.
  assert (T : target mappings f t).
  { unfold mapped_field in Ht. unfold target. destruct (mget f mappings) as [[|t0 l]|] eqn:E; try discriminate; injection Ht as <-; eauto. }
  destruct (named_run mods t v) as (l & Hl & E & N).
  set (ops := match l with [] => [OpIEq] | _ => l end).
  assert (Eo : match fm_comparators mods with [] => [test t v OpIEq] | _ => pc_comparators test (fm_comparators mods) t v end = map (test t v) ops).
  { unfold ops. destruct l as [|op l].
    - rewrite (proj1 N eq_refl). reflexivity.
    - rewrite <- E. destruct (fm_comparators mods); [discriminate (proj2 N eq_refl)|reflexivity]. }
  match goal with |- value_run _ _ _ _ _ (p_all ?cs x) /\ _ => replace cs with (map (test t v) ops) end.
  destruct (all_outcome (fun op o => tst t v op = o) (map (test t v) ops) ops) as [A D].
  { generalize ops. intros os. induction os; cbn [map]; constructor; auto. }
  split; [|assumption]. exists t, l. auto.
Qed.

Lemma forms_single m v : transforming m -> m <> "base64Offset" -> m <> "cidr" ->
  exists fls ws, mget m transformers_map = Some fls /\ Forall2 (fun t w => transform v t = Ok [w]) fls ws /\
    forall mods l, forms mods v l -> forms (m :: mods) v (ws ++ l)%list.
Proof.
  intros Hm N1 N2. unfold transforming in Hm. cbn [In] in Hm.
  repeat destruct Hm as [<-|Hm]; try contradiction; try congruence.
  - exists [Base64Flag], [b64 v]. split; [reflexivity|]. split; [repeat constructor|]. intros; now apply fs_b64.
  - exists [NoFlags], [v]. split; [reflexivity|]. split; [repeat constructor|]. intros; apply fs_same; [cbn; tauto|assumption].
  - exists [NoFlags], [v]. split; [reflexivity|]. split; [repeat constructor|]. intros; apply fs_same; [cbn; tauto|assumption].
  - exists [NoFlags], [v]. split; [reflexivity|]. split; [repeat constructor|]. intros; apply fs_same; [cbn; tauto|assumption].
  - exists [NoFlags], [v]. split; [reflexivity|]. split; [repeat constructor|]. intros; apply fs_same; [cbn; tauto|assumption].
  - exists [NoFlags; WinDashFlag], [v; windash v]. split; [reflexivity|]. split; [repeat constructor|]. intros; now apply fs_dash.
Qed.
Lemma transforms_forms mods v css f cmps :
  rmap (fun t => let* vs := transform v t in rmap (pc_term test mappings cmps f) vs) (fm_transformers mods) = Ok css ->
  exists l cs, forms mods v l /\ rmap (pc_term test mappings cmps f) l = Ok cs /\ concat css = cs.
Proof.
  revert css. induction mods as [|m mods IH]; intros css H.
  - injection H as <-. exists [], []. split; [constructor|]. split; reflexivity.
  - unfold fm_transformers in *. cbn [map concat] in H.
    destruct (mget m transformers_map) as [fls|] eqn:E.
    + assert (Tm : transforming m) by (apply transforming_get; congruence).
      assert (S : exists c1 c2, rmap (fun t => let* vs := transform v t in rmap (pc_term test mappings cmps f) vs) fls = Ok c1 /\
                 rmap (fun t => let* vs := transform v t in rmap (pc_term test mappings cmps f) vs)
                   (concat (map (fun m => match mget m transformers_map with Some l => l | None => [] end) mods)) = Ok c2 /\ css = (c1 ++ c2)%list).
      { revert css H. generalize (concat (map (fun m => match mget m transformers_map with Some l => l | None => [] end) mods)) as rest.
        clear. intros rest. induction fls as [|t fls IHf]; cbn [app]; intros css H.
        - exists [], css. auto.
        - apply rbind_ok in H as (c0 & Hc & H). apply rbind_ok in H as (cr & Hr & H). injection H as <-.
          destruct (IHf _ Hr) as (c1 & c2 & H1 & H2 & ->). exists (c0 :: c1), c2. cbn [rmap]. rewrite Hc. cbn [rbind]. rewrite H1. auto. }
      destruct S as (c1 & c2 & H1 & H2 & ->). destruct (IH _ H2) as (l & cs & Hl & Hcs & Ec).
      assert (N : m <> "base64Offset" /\ m <> "cidr").
      { split; intros ->; vm_compute in E; injection E as <-; cbn [rmap] in H1;
          apply rbind_ok in H1 as (? & H1 & _); cbn in H1; discriminate H1. }
      destruct (forms_single m v Tm (proj1 N) (proj2 N)) as (fls' & ws & E' & F & Hf).
      assert (fls' = fls) by congruence. subst fls'.
      exists (ws ++ l)%list, (concat c1 ++ cs)%list. split; [auto|]. split; [|rewrite concat_app, Ec; reflexivity].
      clear - H1 Hcs F. revert c1 H1. induction F as [|t w fls ws Ht F IH]; intros c1 H1.
      * injection H1 as <-. assumption.
      * apply rbind_ok in H1 as (c0 & Hc & H1). apply rbind_ok in H1 as (cr & Hr & H1). injection H1 as <-.
        rewrite Ht in Hc. cbn [rbind rmap] in Hc. apply rbind_ok in Hc as (k & Hk & Hc). injection Hc as <-.
        cbn [app rmap]. rewrite Hk. cbn [rbind]. rewrite (IH _ Hr). reflexivity.
    + destruct (IH _ H) as (l & cs & Hl & Hcs & Ec). exists l, cs. split; [|auto]. apply fs_skip; [|assumption].
      intros T. apply transforming_get in T. congruence.
Qed.
Lemma value_outcome fm v c : pc_value test mappings (fm_transformers (fm_mods fm)) (fm_comparators (fm_mods fm)) (fm_field fm) v = Ok c ->
  fm_value_run mappings tst fm v (c x) /\ decided (c x).
Proof.
  unfold pc_value, fm_value_run. destruct (fm_transformers (fm_mods fm)) as [|t0 ts] eqn:E.
  - intros H. destruct (term_outcome _ _ _ _ H) as [A D]. split; [|assumption]. left. split; [|assumption].
    apply fm_transformers_nil. assumption.
  - rewrite <- E. intros H. apply rbind_ok in H as (css & Hc & H). injection H as <-.
    destruct (transforms_forms _ _ _ _ _ Hc) as (l & cs & Hl & Hcs & <-).
    destruct (any_outcome (value_run mappings tst (fm_mods fm) (fm_field fm)) (concat css) l) as [A D].
    { eapply rmap_outcome; [exact Hcs|]. intros a c _. apply term_outcome. }
    split; [|assumption]. right.
    assert (Hin : In t0 (fm_transformers (fm_mods fm))) by (rewrite E; now left).
    apply in_fm_transformers in Hin as (m & lm & Hm & Hg & _). exists m, l. split; [assumption|].
    split; [apply transforming_get; congruence|]. auto.
Qed.
Lemma fm_outcome fm c : pc_fm test mappings fm = Ok c -> fm_run mappings tst fm (c x) /\ decided (c x).
Proof.
  unfold pc_fm, fm_run. intros H. apply rbind_ok in H as (cs & Hc & H). injection H as <-.
  assert (F : Forall2 (fun v c => fm_value_run mappings tst fm v (c x) /\ decided (c x)) (fm_values fm) cs).
  { eapply rmap_outcome; [exact Hc|]. intros v c _. apply value_outcome. }
  destruct (fm_all (fm_mods fm)) eqn:E.
  - destruct (all_outcome _ _ _ F) as [A D]. split; [|assumption]. left. split; [apply fm_all_spec; assumption|assumption].
  - destruct (any_outcome _ _ _ F) as [A D]. split; [|assumption]. right. split; [|assumption].
    intros Hi. apply fm_all_spec in Hi. congruence.
Qed.
Lemma search_outcome s c : pc_search test mappings s = Ok c -> search_run mappings tst s (c x) /\ decided (c x).
Proof.
  unfold pc_search, search_run. destruct (se_keywords s) as [|k ks].
  - intros H. apply rbind_ok in H as (cs & Hc & H). injection H as <-.
    destruct (all_outcome (fm_run mappings tst) cs (concat (se_matchers s))) as [A D].
    { eapply rmap_outcome; [exact Hc|]. intros a c _. apply fm_outcome. }
    split; [right; auto|assumption].
  - intros [= <-]. split; [left; split; [discriminate|reflexivity]|right; exists false; reflexivity].
Qed.
Variable searches : gomap search.
Variable enum : list nat -> list (string * search).
Hypothesis Henum : forall p, Permutation (enum p) searches.
Lemma sexpr_outcome e : forall p c, pc_sexpr test mappings pmatch searches enum p e = Ok c ->
  cond_run mappings pmatch tst searches e (c x) /\ decided (c x).
Proof.
  assert (W : forall (l : list (string * search)) cs, rmap (fun ns => pc_search test mappings (snd ns)) l = Ok cs ->
     Forall2 (fun a c => search_run mappings tst (snd a) (c x) /\ decided (c x)) l cs).
  { intros l cs H. apply (rmap_outcome (fun ns => pc_search test mappings (snd ns)) (fun ns o => search_run mappings tst (snd ns) o) l cs H).
    intros a c _. apply search_outcome. }
  induction e as [n|l IH|l IH|e IH| |pt| |pt|] using sexpr_ind'; intros p c; simpl.
  - destruct (mget n searches) as [s|] eqn:E.
    + intros H. destruct (search_outcome _ _ H). split; [econstructor; eauto|assumption].
    + intros [= <-]. split; [now constructor|right; exists false; reflexivity].
  - intros H. apply rbind_ok in H as (cs & Hcs & H). injection H as <-.
    destruct (all_outcome (cond_run mappings pmatch tst searches) cs l) as [A D]; [|split; [now constructor|assumption]].
    revert cs Hcs. generalize 0. induction IH as [|e l He Hl IHl]; intros i cs Hcs; [injection Hcs as <-; constructor|].
    apply rbind_ok in Hcs as (c & Hc & Hcs). apply rbind_ok in Hcs as (cs' & Hcs & H). injection H as <-. constructor; eauto.
  - intros H. apply rbind_ok in H as (cs & Hcs & H). injection H as <-.
    destruct (any_outcome (cond_run mappings pmatch tst searches) cs l) as [A D]; [|split; [now constructor|assumption]].
    revert cs Hcs. generalize 0. induction IH as [|e l He Hl IHl]; intros i cs Hcs; [injection Hcs as <-; constructor|].
    apply rbind_ok in Hcs as (c & Hc & Hcs). apply rbind_ok in Hcs as (cs' & Hcs & H). injection H as <-. constructor; eauto.
  - intros H. apply rbind_ok in H as (c0 & Hc & H). injection H as <-. destruct (IH _ _ Hc) as [A D].
    unfold p_not, rbind. destruct D as [E|[b E]]; rewrite E in *.
    + split; [now constructor|now left].
    + split; [now constructor|right; eauto].
  - intros H. apply rbind_ok in H as (cs & Hcs & H). injection H as <-. destruct (any_outcome (fun ns o => search_run mappings tst (snd ns) o) _ _ (W _ _ Hcs)) as [A D].
    split; [econstructor; [apply Henum|exact A]|assumption].
  - intros H. apply rbind_ok in H as (cs & Hcs & H). injection H as <-. destruct (any_outcome (fun ns o => search_run mappings tst (snd ns) o) _ _ (W _ _ Hcs)) as [A D].
    split; [econstructor; [apply Henum|exact A]|assumption].
  - intros H. apply rbind_ok in H as (cs & Hcs & H). injection H as <-. destruct (all_outcome (fun ns o => search_run mappings tst (snd ns) o) _ _ (W _ _ Hcs)) as [A D].
    split; [econstructor; [apply Henum|exact A]|assumption].
  - intros H. apply rbind_ok in H as (cs & Hcs & H). injection H as <-. destruct (all_outcome (fun ns o => search_run mappings tst (snd ns) o) _ _ (W _ _ Hcs)) as [A D].
    split; [econstructor; [apply Henum|exact A]|assumption].
  - intros [= <-]. split; [constructor|right; exists false; reflexivity].
Qed.
End Run.

(** ** Agreement with the Boolean compiler *)
Section Agree.
Context {R : Type}.
Variable ops : operations R.
Variable test : string -> string -> operator -> pcrit R.
Variable mappings : gomap (list string).
Variable pmatch : string -> string -> bool.
Variable Rel : criterion R -> pcrit R -> Prop.
Hypothesis Rt : Rel c_true p_true.
Hypothesis Rf : Rel c_false p_false.
Hypothesis Rand : forall c d c' d', Rel c c' -> Rel d d' -> Rel (c_and c d) (p_and c' d').
Hypothesis Ror : forall c d c' d', Rel c c' -> Rel d d' -> Rel (c_or c d) (p_or c' d').
Hypothesis Rnot : forall c c', Rel c c' -> Rel (c_not c) (p_not c').
Hypothesis Rtest : forall l r op c, op_compare ops l r op = Ok (c, false) -> Rel c (test l r op).

Lemma r_all cs ds : Forall2 Rel cs ds -> Rel (c_all cs) (p_all ds).
Proof.
  intros F. unfold c_all, p_all. generalize (@c_true R) (@p_true R) Rt. induction F as [|c d cs ds H F IH]; intros a b Hab; cbn [fold_left]; auto.
Qed.
Lemma r_any cs ds : Forall2 Rel cs ds -> Rel (c_any cs) (p_any ds).
Proof.
  intros F. unfold c_any, p_any. generalize (@c_false R) (@p_false R) Rf. induction F as [|c d cs ds H F IH]; intros a b Hab; cbn [fold_left]; auto.
Qed.
Lemma r_rmap {A} (f : A -> res (criterion R)) (g : A -> res (pcrit R)) l cs :
  (forall a c, f a = Ok c -> exists d, g a = Ok d /\ Rel c d) -> rmap f l = Ok cs ->
  exists ds, rmap g l = Ok ds /\ Forall2 Rel cs ds.
Proof.
  intros Hf. revert cs. induction l as [|a l IH]; intros cs H.
  - injection H as <-. exists []. split; [reflexivity|constructor].
  - apply rbind_ok in H as (c & Hc & H). apply rbind_ok in H as (cs' & Hcs & H). injection H as <-.
    destruct (Hf _ _ Hc) as (d & Hd & K). destruct (IH _ Hcs) as (ds & Hds & F).
    exists (d :: ds). cbn [rmap]. rewrite Hd. cbn [rbind]. rewrite Hds. split; [reflexivity|constructor; assumption].
Qed.
Lemma r_comparators mods t v cs : comparator_preds ops (fm_comparators mods) t v = Ok cs ->
  Forall2 Rel cs (pc_comparators test (fm_comparators mods) t v).
Proof.
  unfold fm_comparators. revert cs. induction mods as [|m mods IH]; intros cs H; cbn [List.filter] in *.
  - injection H as <-. constructor.
  - destruct (is_comparator m) eqn:C; [|auto].
    unfold is_comparator, comparators_map in C. cbn [existsb] in C.
    repeat match type of C with context [seqb m ?k] =>
      let E := fresh "E" in destruct (seqb m k) eqn:E;
        [apply seqb_eq in E; subst m; cbn [comparator_preds] in H;
         apply rbind_ok in H as (c & Hc & H); apply rbind_ok in H as (cs' & Hcs & H); injection H as <-;
         apply first_of_ok in Hc; exact (Forall2_cons _ _ (Rtest _ _ _ _ Hc) (IH _ Hcs))|] end.
    discriminate.
Qed.
Lemma r_term mods f v c : s_visit_term ops mappings (fm_comparators mods) f v = Ok c ->
  exists d, pc_term test mappings (fm_comparators mods) f v = Ok d /\ Rel c d.
Proof.
  unfold s_visit_term, pc_term. intros H. apply rbind_ok in H as (t & Ht & H). apply rbind_ok in H as (cs & Hcs & H).
  injection H as <-. rewrite Ht. cbn [rbind]. eexists. split; [reflexivity|]. apply r_all.
  destruct (fm_comparators mods) as [|m ms] eqn:E.
  - apply rbind_ok in Hcs as (c & Hc & Hcs). injection Hcs as <-. apply first_of_ok in Hc. repeat constructor. auto.
  - rewrite <- E in *. apply r_comparators. exact Hcs.
Qed.
Lemma r_fm fm c : visit_fm ops mappings fm = Ok c -> exists d, pc_fm test mappings fm = Ok d /\ Rel c d.
Proof.
  unfold visit_fm, pc_fm. intros H. apply rbind_ok in H as (cs & Hc & H). injection H as <-.
  assert (V : forall v c, visit_value ops mappings (fm_transformers (fm_mods fm)) (fm_comparators (fm_mods fm)) (fm_field fm) v = Ok c ->
     exists d, pc_value test mappings (fm_transformers (fm_mods fm)) (fm_comparators (fm_mods fm)) (fm_field fm) v = Ok d /\ Rel c d).
  { intros v c H. unfold visit_value, pc_value in *. destruct (fm_transformers (fm_mods fm)) as [|t0 ts]; [now apply r_term|].
    apply rbind_ok in H as (css & Hcss & H). injection H as <-.
    assert (K : exists dss, rmap (fun t => let* vs := transform v t in rmap (pc_term test mappings (fm_comparators (fm_mods fm)) (fm_field fm)) vs) (t0 :: ts) = Ok dss
              /\ Forall2 Rel (concat css) (concat dss)).
    { clear Hc. revert css Hcss. generalize (t0 :: ts). intros fls. induction fls as [|t l IH]; intros css Hcss.
      - injection Hcss as <-. exists []. split; [reflexivity|constructor].
      - apply rbind_ok in Hcss as (c1 & H1 & Hcss). apply rbind_ok in Hcss as (cr & Hr & Hcss). injection Hcss as <-.
        apply rbind_ok in H1 as (ws & Hw & H1).
        destruct (r_rmap (s_visit_term ops mappings (fm_comparators (fm_mods fm)) (fm_field fm)) (pc_term test mappings (fm_comparators (fm_mods fm)) (fm_field fm)) ws c1 (fun a c => r_term (fm_mods fm) (fm_field fm) a c) H1) as (d1 & D1 & F1).
        destruct (IH _ Hr) as (dr & Dr & Fr). exists (d1 :: dr). cbn [rmap]. rewrite Hw. cbn [rbind]. rewrite D1. cbn [rbind]. rewrite Dr.
        split; [reflexivity|]. cbn [concat]. apply Forall2_app; assumption. }
    destruct K as (dss & -> & F). eexists. split; [reflexivity|]. now apply r_any. }
  destruct (r_rmap _ _ _ _ V Hc) as (ds & -> & F). eexists. split; [reflexivity|].
  destruct (fm_all (fm_mods fm)); [now apply r_all|now apply r_any].
Qed.
Lemma r_search s c : visit_search ops mappings s = Ok c -> exists d, pc_search test mappings s = Ok d /\ Rel c d.
Proof.
  unfold visit_search, pc_search. destruct (se_keywords s); [|intros [= <-]; eauto].
  intros H. apply rbind_ok in H as (cs & Hc & H). injection H as <-.
  destruct (r_rmap _ _ _ _ r_fm Hc) as (ds & -> & F). eexists. split; [reflexivity|]. now apply r_all.
Qed.
Lemma r_sexpr searches enum e : forall p c, visit_sexpr ops mappings pmatch searches enum p e = Ok c ->
  exists d, pc_sexpr test mappings pmatch searches enum p e = Ok d /\ Rel c d.
Proof.
  assert (W : forall (l : list (string * search)) cs, rmap (fun ns => visit_search ops mappings (snd ns)) l = Ok cs ->
     exists ds, rmap (fun ns => pc_search test mappings (snd ns)) l = Ok ds /\ Forall2 Rel cs ds).
  { intros l cs. apply r_rmap. intros a c. apply r_search. }
  induction e as [n|l IH|l IH|e IH| |pt| |pt|] using sexpr_ind'; intros p c; simpl.
  - destruct (mget n searches); [apply r_search|intros [= <-]; eauto].
  - intros H. apply rbind_ok in H as (cs & Hcs & H). injection H as <-.
    match goal with |- exists d, (let* cs := ?x in _) = _ /\ _ => assert (K : exists ds, x = Ok ds /\ Forall2 Rel cs ds) end.
    { revert cs Hcs. generalize 0. induction IH as [|e l He Hl IHl]; intros i cs Hcs; [injection Hcs as <-; eauto|].
      apply rbind_ok in Hcs as (c & Hc & Hcs). apply rbind_ok in Hcs as (cs' & Hcs & H). injection H as <-.
      destruct (He _ _ Hc) as (d & -> & Hd). destruct (IHl _ _ Hcs) as (ds & K & F). cbn [rbind]. rewrite K. eexists. split; [reflexivity|]. constructor; assumption. }
    destruct K as (ds & -> & F). eexists. split; [reflexivity|]. now apply r_all.
  - intros H. apply rbind_ok in H as (cs & Hcs & H). injection H as <-.
    match goal with |- exists d, (let* cs := ?x in _) = _ /\ _ => assert (K : exists ds, x = Ok ds /\ Forall2 Rel cs ds) end.
    { revert cs Hcs. generalize 0. induction IH as [|e l He Hl IHl]; intros i cs Hcs; [injection Hcs as <-; eauto|].
      apply rbind_ok in Hcs as (c & Hc & Hcs). apply rbind_ok in Hcs as (cs' & Hcs & H). injection H as <-.
      destruct (He _ _ Hc) as (d & -> & Hd). destruct (IHl _ _ Hcs) as (ds & K & F). cbn [rbind]. rewrite K. eexists. split; [reflexivity|]. constructor; assumption. }
    destruct K as (ds & -> & F). eexists. split; [reflexivity|]. now apply r_any.
  - intros H. apply rbind_ok in H as (c0 & Hc & H). injection H as <-. destruct (IH _ _ Hc) as (d & -> & Hd). eexists. split; [reflexivity|]. auto.
  - intros H. apply rbind_ok in H as (cs & Hcs & H). injection H as <-. destruct (W _ _ Hcs) as (ds & -> & F). eexists. split; [reflexivity|]. now apply r_any.
  - intros H. apply rbind_ok in H as (cs & Hcs & H). injection H as <-. destruct (W _ _ Hcs) as (ds & -> & F). eexists. split; [reflexivity|]. now apply r_any.
  - intros H. apply rbind_ok in H as (cs & Hcs & H). injection H as <-. destruct (W _ _ Hcs) as (ds & -> & F). eexists. split; [reflexivity|]. now apply r_all.
  - intros H. apply rbind_ok in H as (cs & Hcs & H). injection H as <-. destruct (W _ _ Hcs) as (ds & -> & F). eexists. split; [reflexivity|]. now apply r_all.
  - intros [= <-]. eauto.
Qed.
End Agree.

(** ** Whole policies on flattened records *)
Lemma flat_test_decided X M l r op fr : decided (flat_test X M l r op fr).
Proof.
  unfold decided, flat_test, rbind, map_str, rbind.
  destruct op; cbn [str_op int_op]; try (right; eexists; reflexivity);
    (destruct (split_path M l) as [[b1 p1]| | |] eqn:E1;
      [destruct (split_path M r) as [[b2 p2]| | |] eqn:E2; [right; eexists; reflexivity|left; reflexivity| |]|left; reflexivity| |]);
    exfalso; unfold split_path in *;
    repeat match goal with
           | H : context [match cut_at _ ?s with _ => _ end] |- _ => destruct (cut_at "["%char s) as [[? ?]|]; try discriminate
           | H : context [if mhas ?b M then _ else _] |- _ => destruct (mhas b M); try discriminate
           | H : context [match ?p with EmptyString => _ | _ => _ end] |- _ => destruct p; try discriminate
           end.
Qed.
Lemma in_bytes c s : has_byte c s = false <-> ~ In c (list_ascii_of_string s).
Proof.
  induction s as [|a s IH]; cbn [has_byte list_ascii_of_string In]; [tauto|].
  destruct (Ascii.eqb a c) eqn:E; cbn [orb].
  - apply Ascii.eqb_eq in E. subst. split; [discriminate|]. intros H. exfalso. apply H. now left.
  - apply Ascii.eqb_neq in E. tauto.
Qed.
Lemma split_cut_off M a : split_path M a = Panic <-> cut_off M a.
Proof.
  unfold split_path, cut_off. destruct (cut_at "["%char a) as [[b p]|] eqn:E.
  - pose proof (proj1 (cut_at_spec _ _ _ _) E) as [Ea Hb]. unfold mhas. destruct (mget b M) as [f|] eqn:G.
    + destruct p as [|c p].
      * split; [|reflexivity]. intros _. exists b. split; [now apply in_bytes|]. split; [congruence|assumption].
      * split; [discriminate|]. intros (b' & Hb' & _ & Ea'). exfalso.
        assert (cut_at "["%char a = Some (b', "")) by (apply cut_at_spec; split; [assumption|now apply in_bytes]). congruence.
    + split; [discriminate|]. intros (b' & Hb' & Hm & Ea'). exfalso.
      assert (cut_at "["%char a = Some (b', "")) by (apply cut_at_spec; split; [assumption|now apply in_bytes]). congruence.
  - split; [discriminate|]. intros (b' & Hb' & _ & Ea'). exfalso.
    assert (cut_at "["%char a = Some (b', "")) by (apply cut_at_spec; split; [assumption|now apply in_bytes]). congruence.
Qed.
Lemma not_cut_off X M a : ~ cut_off M a -> exists m, map_str X M a = Ok m.
Proof.
  intros H. unfold map_str, rbind. destruct (split_path M a) as [[b p]| | |] eqn:E; [eauto| | |].
  - exfalso. apply H. apply split_cut_off. assumption.
  - exfalso. unfold split_path in E. destruct (cut_at "["%char a) as [[? p]|]; [|discriminate]. destruct (mhas s M); [|discriminate]. destruct p; discriminate.
  - exfalso. unfold split_path in E. destruct (cut_at "["%char a) as [[? p]|]; [|discriminate]. destruct (mhas s M); [|discriminate]. destruct p; discriminate.
Qed.

Section Flat.
Variable X : sfgo_fns.
Variable M : gomap fieldmap.
Variable mappings : gomap (list string).
Variable pmatch : string -> string -> bool.
Variable ord : srule -> list nat -> list (string * search).
Hypothesis Hord : forall r p, Permutation (ord r p) (sr_searches r).

Lemma sexpr_reads_data searches enum e p c : pc_sexpr (sf_test X M) mappings pmatch searches enum p e = Ok c ->
  forall a b : sfrec, fst a = fst b -> c a = c b.
Proof.
  intros H. pattern c. revert H. apply q_sexpr; unfold p_true, p_false, p_and, p_or, p_not; try reflexivity.
  - intros f g Hf Hg a b E. rewrite (Hf a b E). unfold rbind. destruct (f b) as [[|]| | |]; auto.
  - intros f g Hf Hg a b E. rewrite (Hf a b E). unfold rbind. destruct (f b) as [[|]| | |]; auto.
  - intros f Hf a b E. rewrite (Hf a b E). reflexivity.
  - intros l r op a b E. unfold sf_test. rewrite E. reflexivity.
Qed.
Lemma pc_srule_spec r prs : pc_srule (sf_test X M) mappings pmatch ord r = Ok prs ->
  Forall2 (prule_of X M mappings pmatch) (map (fun e => (r, e)) (sr_conds r)) prs.
Proof.
  unfold pc_srule. intros H.
  assert (F : Forall2 (fun e pr => prule_of X M mappings pmatch (r, e) pr) (sr_conds r) prs).
  { eapply imap_f2; [exact H|]. intros i e b Hb. apply rbind_ok in Hb as (c & Hc & Hb). injection Hb as <-.
    repeat (split; [reflexivity|]). split; [apply level_spec|]. repeat (split; [reflexivity|]).
    split; [|intros a b; eapply sexpr_reads_data; exact Hc].
    intros x. cbn [pr_cond].
    refine (proj1 (@sexpr_outcome _ (sf_test X M) mappings pmatch x _ _ _ _ e _ c Hc)).
    - intros l t op. apply flat_test_decided.
    - auto. }
  clear H. induction F; simpl; constructor; auto.
Qed.
Lemma read_rules_readable fs srs : read_rules fs = Some srs <-> readable fs srs.
Proof.
  split.
  - revert srs; induction fs as [|[[r|]|] fs IH]; simpl; intros srs E.
    + injection E as <-. constructor.
    + destruct (read_rules fs); [|discriminate]. injection E as <-. constructor; auto.
    + constructor; auto.
    + discriminate.
  - induction 1 as [|r fs rs H IH|fs rs H IH]; cbn [read_rules]; [reflexivity|rewrite IH; reflexivity|assumption].
Qed.
Lemma pc_compile_spec fs prs : pc_compile (sf_test X M) mappings pmatch ord fs = Ok (Some prs) ->
  exists srs, readable fs srs /\
    Forall2 (prule_of X M mappings pmatch) (concat (map (fun r => map (fun e => (r, e)) (sr_conds r)) srs)) prs.
Proof.
  unfold pc_compile. destruct (read_rules fs) as [srs|] eqn:E; [|discriminate]. intros H.
  apply rbind_ok in H as (rss & Hr & H). injection H as <-. exists srs. split; [now apply read_rules_readable|].
  apply rmap_ok in Hr. clear - Hr Hord. induction Hr as [|r rs' srs rss Hc F IH]; simpl; [constructor|].
  apply Forall2_app; auto. apply pc_srule_spec; auto.
Qed.

(** Agreement and acceptance. *)
Section Both.
Variable ops : operations sfrec.
Variable Rel : criterion sfrec -> (sfrec -> res bool) -> Prop.
Hypothesis Rt : Rel c_true p_true.
Hypothesis Rf : Rel c_false p_false.
Hypothesis Rand : forall c d c' d', Rel c c' -> Rel d d' -> Rel (c_and c d) (p_and c' d').
Hypothesis Ror : forall c d c' d', Rel c c' -> Rel d d' -> Rel (c_or c d) (p_or c' d').
Hypothesis Rnot : forall c c', Rel c c' -> Rel (c_not c) (p_not c').
Hypothesis Rtest : forall l r op c, op_compare ops l r op = Ok (c, false) -> Rel c (sf_test X M l r op).
Lemma compile_agree fs rs : s_compile ops mappings pmatch ord fs = Ok (Some rs) ->
  exists prs, pc_compile (sf_test X M) mappings pmatch ord fs = Ok (Some prs) /\
    Forall2 (fun ru pr => Rel (r_cond ru) (pr_cond pr)) rs prs.
Proof.
  unfold s_compile, pc_compile. destruct (read_rules fs) as [srs|]; [|discriminate]. intros H.
  apply rbind_ok in H as (rss & Hr & H). injection H as <-.
  assert (K : exists prss, rmap (pc_srule (sf_test X M) mappings pmatch ord) srs = Ok prss /\
     Forall2 (fun ru pr => Rel (r_cond ru) (pr_cond pr)) (concat rss) (concat prss)).
  { revert rss Hr. induction srs as [|r srs IH]; intros rss Hr.
    - injection Hr as <-. exists []. split; [reflexivity|constructor].
    - apply rbind_ok in Hr as (rs & H1 & Hr). apply rbind_ok in Hr as (rss' & H2 & Hr). injection Hr as <-.
      destruct (IH _ H2) as (prss & E2 & F2).
      assert (K1 : exists ps, pc_srule (sf_test X M) mappings pmatch ord r = Ok ps /\ Forall2 (fun ru pr => Rel (r_cond ru) (pr_cond pr)) rs ps).
      { unfold compile_srule, pc_srule in *. revert rs H1. generalize 0. induction (sr_conds r) as [|e es IHe]; intros i rs H1.
        - injection H1 as <-. exists []. split; [reflexivity|constructor].
        - apply rbind_ok in H1 as (ru & Hc & H1). apply rbind_ok in H1 as (rs' & Hs & H1). injection H1 as <-.
          apply rbind_ok in Hc as (c & Hc & Hu). injection Hu as <-.
          destruct (@r_sexpr _ ops (sf_test X M) mappings pmatch Rel Rt Rf Rand Ror Rnot Rtest _ _ _ _ _ Hc) as (d & Hd & K).
          destruct (IHe _ _ Hs) as (ps & Hps & F). cbn [imap]. rewrite Hd. cbn [rbind]. rewrite Hps.
          eexists. split; [reflexivity|]. constructor; assumption. }
      destruct K1 as (ps & E1 & F1). exists (ps :: prss). cbn [rmap]. rewrite E1. cbn [rbind]. rewrite E2.
      split; [reflexivity|]. cbn [concat]. apply Forall2_app; assumption. }
  destruct K as (prss & -> & F). eexists. split; [reflexivity|assumption].
Qed.
Lemma s_compile_total (P : string -> Prop) fs srs :
  (forall l r op, P l -> P r -> exists c, op_compare ops l r op = Ok (c, false)) ->
  readable fs srs -> (forall r n s, In r srs -> In (n, s) (sr_searches r) -> search_usable mappings P s) ->
  exists rs, s_compile ops mappings pmatch ord fs = Ok (Some rs).
Proof.
  intros Hops Hr Hu. unfold s_compile. apply read_rules_readable in Hr. rewrite Hr.
  assert (K : exists rss, rmap (compile_srule ops mappings pmatch ord) srs = Ok rss).
  { apply rmap_tot. intros r Hi. unfold compile_srule. generalize 0. induction (sr_conds r) as [|e es IH]; intros i; cbn [imap]; [eauto|].
    destruct (@visit_sexpr_total _ ops mappings pmatch P Hops (sr_searches r) (ord r) (Hord r) (fun n s => Hu r n s Hi) e [i]) as (c & ->).
    cbn [rbind]. destruct (IH (S i)) as (cs & ->). cbn [rbind]. eauto. }
  destruct K as (rss & ->). cbn [rbind]. eauto.
Qed.
End Both.

Lemma accepted fs srs : readable fs srs -> (forall r n s, In r srs -> In (n, s) (sr_searches r) -> search_compiles mappings s) ->
  exists prs, pc_compile (sf_test X M) mappings pmatch ord fs = Ok (Some prs).
Proof.
  intros Hr Hs. set (ops := mkOps (fun _ => Ok (@c_false sfrec, false)) (fun _ _ _ => Ok (c_false, false)) (fun _ _ _ => Ok (c_false, false))
    (fun _ _ _ => Ok (c_false, false)) (fun _ _ => Ok (c_false, false))).
  destruct (s_compile_total ops (fun _ => True) fs srs) as (rs & E); [intros; eexists; reflexivity|assumption| |].
  - intros r n s Hi Hn em fm He Hf. destruct (Hs r n s Hi Hn em fm He Hf). repeat split; auto; apply H; assumption.
  - destruct (compile_agree ops (fun _ _ => True)) with (fs := fs) (rs := rs) as (prs & Ep & _); auto. eauto.
Qed.
Lemma agree fs rs : s_compile (sf_ops X M) mappings pmatch ord fs = Ok (Some rs) ->
  exists prs, pc_compile (sf_test X M) mappings pmatch ord fs = Ok (Some prs) /\
    Forall2 (fun ru pr => forall r, pr_cond pr r = Ok (c_eval (r_cond ru) r)) rs prs.
Proof.
  intros H. apply (compile_agree (sf_ops X M) (fun c d => forall r, d r = Ok (c_eval c r))) with (rs := rs); auto; try reflexivity;
    unfold p_and, p_or, p_not, c_and, c_or, c_not, c_eval, rbind.
  - intros c d c' d' H1 H2 r. rewrite H1. destruct (c r); [apply H2|reflexivity].
  - intros c d c' d' H1 H2 r. rewrite H1. destruct (c r); [reflexivity|apply H2].
  - intros c c' H1 r. rewrite H1. reflexivity.
  - intros l r op c Hc x. unfold sf_test, sf_ops, sf_lift in *. cbn [op_compare] in Hc. apply rbind_ok in Hc as ([c0 e] & Hc & E).
    injection E as <- ->. destruct x as [fr ctx]. cbn [fst]. cbn [flat_ops op_compare] in Hc. unfold fr_compare, fr_compare_str, fr_compare_int, flat_test in *.
    destruct op; cbn [str_op int_op] in *;
      try (injection Hc as <-; reflexivity);
      (apply rbind_ok in Hc as (ml & El & Hc); apply rbind_ok in Hc as (mr & Er & Hc); injection Hc as <-; rewrite El, Er; reflexivity).
Qed.
Lemma safe fs srs : readable fs srs ->
  (forall r n s, In r srs -> In (n, s) (sr_searches r) -> search_usable mappings (fun a => ~ cut_off M a) s) ->
  exists prs, pc_compile (sf_test X M) mappings pmatch ord fs = Ok (Some prs) /\
    forall pr r, In pr prs -> exists b, pr_cond pr r = Ok b.
Proof.
  intros Hr Hu. destruct (s_compile_total (sf_ops X M) (fun a => ~ cut_off M a) fs srs) as (rs & E); [|assumption|assumption|].
  - intros l r op Hl Hrr. destruct (not_cut_off X M l Hl) as (ml & El). destruct (not_cut_off X M r Hrr) as (mr & Er).
    unfold sf_ops, sf_lift. cbn [op_compare flat_ops]. unfold fr_compare, fr_compare_str, fr_compare_int.
    destruct op; cbn [str_op int_op]; try rewrite El; try rewrite Er; cbn [rbind]; eexists; reflexivity.
  - destruct (agree fs rs E) as (prs & Ep & F). exists prs. split; [assumption|]. intros pr r Hi.
    clear - F Hi. induction F as [|ru p rs prs H F IH]; [destruct Hi|]. destruct Hi as [->|Hi]; [rewrite H; eauto|auto].
Qed.

(** The worker. *)
Lemma no_acts ah (ru : rule sfrec) r : r_actions ru = [] -> handle_actions ah ru r = (r, []).
Proof. intros H. unfold handle_actions. rewrite H. reflexivity. Qed.
Lemma fst_add r ru : fst (sf_add r ru) = fst r.
Proof. reflexivity. Qed.
Definition plain_rule (pr : prule sfrec) : Prop :=
  r_actions (pr_rule pr) = [] /\ r_prefilter (pr_rule pr) = [] /\ r_enabled (pr_rule pr) = true /\
  (forall r r', fst r = fst r' -> pr_cond pr r = pr_cond pr r') /\ forall r, decided (pr_cond pr r).
Lemma hits_data prs r r' : Forall plain_rule prs -> fst r = fst r' -> hits prs r = hits prs r'.
Proof.
  intros F E. unfold hits. f_equal. induction F as [|pr prs (_ & _ & _ & H & _) F IH]; [reflexivity|].
  cbn [List.filter]. assert (Eh : holds pr r = holds pr r') by (unfold holds; rewrite (H r r' E); reflexivity). rewrite Eh, IH. reflexivity.
Qed.
Lemma apply_outcome ah prs : Forall plain_rule prs -> forall r m,
  ((exists pr, In pr prs /\ pr_cond pr r = Panic) /\ snd (pc_apply (sf_applicable X M) sf_add ah prs r m) = Panic) \/
  ((forall pr, In pr prs -> pr_cond pr r <> Panic) /\
   pc_apply (sf_applicable X M) sf_add ah prs r m =
     (map FAnnot (hits prs r), Ok (annotated (hits prs r) r, m || match hits prs r with [] => false | _ => true end))).
Proof.
  induction 1 as [|pr prs (Ha & Hp & He & Hd & Hdec) F IH]; intros r m.
  - right. split; [intros pr []|]. cbn. rewrite orb_false_r. reflexivity.
  - cbn [pc_apply]. rewrite He.
    assert (Hap : sf_applicable X M r (pr_rule pr) = true) by (unfold sf_applicable; rewrite Hp; reflexivity). rewrite Hap. cbn [andb].
    destruct (Hdec r) as [E|[b E]].
    + left. split; [exists pr; split; [now left|assumption]|]. rewrite E. reflexivity.
    + rewrite E. destruct b.
      * rewrite (no_acts ah _ _ Ha). cbn [app].
        assert (Es : fst (sf_add r (pr_rule pr)) = fst r) by reflexivity.
        destruct (IH (sf_add r (pr_rule pr)) true) as [[(q & Hq & Eq) Er]|[Hn Er]].
        -- left. split; [exists q; split; [now right|]|].
           ++ rewrite <- Eq. rewrite Forall_forall in F. destruct (F q Hq) as (_ & _ & _ & H & _). apply H. symmetry. exact Es.
           ++ destruct (pc_apply _ _ _ _ _ _) as [es' o]. exact Er.
        -- right. split.
           ++ intros q [<-|Hq]; [congruence|]. intros Eq. apply (Hn q Hq). rewrite Forall_forall in F. destruct (F q Hq) as (_ & _ & _ & H & _).
              rewrite <- Eq. apply H. exact Es.
           ++ rewrite Er. rewrite (hits_data prs _ r F Es).
              assert (Eh : hits (pr :: prs) r = pr_rule pr :: hits prs r) by (unfold hits; cbn [List.filter]; assert (Eb : holds pr r = true) by (unfold holds; rewrite E; reflexivity); rewrite Eb; reflexivity).
              rewrite Eh. cbn [map annotated fold_left]. rewrite orb_true_r. cbn [orb]. reflexivity.
      * assert (Eh : hits (pr :: prs) r = hits prs r) by (unfold hits; cbn [List.filter]; assert (Eb : holds pr r = false) by (unfold holds; rewrite E; reflexivity); rewrite Eb; reflexivity).
        rewrite Eh. destruct (IH r m) as [[(q & Hq & Eq) Er]|[Hn Er]].
        -- left. split; [exists q; split; [now right|assumption]|assumption].
        -- right. split; [|assumption]. intros q [<-|Hq]; [congruence|auto].
Qed.
Lemma imap_in {A B} (f : nat -> A -> res B) l : forall i bs, imap f i l = Ok bs -> forall b, In b bs -> exists i a, In a l /\ f i a = Ok b.
Proof.
  induction l as [|a l IH]; intros i bs H b Hb.
  - injection H as <-. destruct Hb.
  - apply rbind_ok in H as (b0 & Hf & H). apply rbind_ok in H as (bs' & Hs & H). injection H as <-. destruct Hb as [<-|Hb].
    + exists i, a. split; [now left|assumption].
    + destruct (IH _ _ Hs b Hb) as (j & a' & Ha & Hj). exists j, a'. split; [now right|assumption].
Qed.
Lemma compiled_plain fs prs : pc_compile (sf_test X M) mappings pmatch ord fs = Ok (Some prs) -> Forall plain_rule prs.
Proof.
  unfold pc_compile. destruct (read_rules fs) as [srs|]; [|discriminate]. intros H. apply rbind_ok in H as (rss & Hr & H). injection H as <-.
  apply Forall_forall. intros pr Hi. apply in_concat in Hi as (prs & Hprs & Hi).
  destruct (rmap_in_r _ _ _ Hr prs Hprs) as (r & _ & Hs). unfold pc_srule in Hs.
  destruct (imap_in _ _ _ _ Hs pr Hi) as (i & e & _ & Hp). apply rbind_ok in Hp as (c & Hc & E). injection E as <-.
  split; [reflexivity|]. split; [reflexivity|]. split; [reflexivity|].
  split; [intros a b; eapply sexpr_reads_data; exact Hc|]. intros x. cbn [pr_cond].
  refine (proj2 (@sexpr_outcome _ (sf_test X M) mappings pmatch x _ _ _ (Hord r) e _ c Hc)). intros l t op. apply flat_test_decided.
Qed.
Lemma worker fs prs : pc_compile (sf_test X M) mappings pmatch ord fs = Ok (Some prs) -> forall ah m r,
  ((exists pr, In pr prs /\ pr_cond pr r = Panic) -> snd (pc_work (sf_applicable X M) sf_add ah m prs r) = Panic) /\
  ((forall pr, In pr prs -> pr_cond pr r <> Panic) ->
   pc_work (sf_applicable X M) sf_add ah m prs r =
     ((map FAnnot (hits prs r) ++
       match m, hits prs r with AlertMode, [] => [] | _, _ => [FOut (annotated (hits prs r) r)] end)%list,
      Ok (annotated (hits prs r) r))).
Proof.
  intros Hc ah m r. apply compiled_plain in Hc. unfold pc_work.
  destruct (apply_outcome ah prs Hc r (match m with EnrichMode => true | AlertMode => false end)) as [[Hex E]|[Hn E]]; split.
  - intros _. destruct (pc_apply _ _ _ _ _ _) as [es o]. cbn [snd] in E. rewrite E. reflexivity.
  - intros Hn. destruct Hex as (pr & Hi & Ep). elim (Hn pr Hi Ep).
  - intros (pr & Hi & Ep). elim (Hn pr Hi Ep).
  - intros _. rewrite E. destruct m; cbn [orb]; destruct (hits prs r) as [|h hs]; cbn [map app]; reflexivity.
Qed.

(** A rule that is accepted and ends the process. *)
Lemma bomb r n f v mods t :
  sr_conds r = [SId n] -> mget n (sr_searches r) = Some (mkSearch [] [[mkFM f mods [v]]]) ->
  (forall m, In m mods -> ~ transforming m) -> (forall m op, In m mods -> mod_op m op -> is_str_op op = true) ->
  target mappings f t -> cut_off M t \/ cut_off M v ->
  exists pr, pc_compile (sf_test X M) mappings pmatch ord [Some (Some r)] = Ok (Some [pr]) /\ forall x, pr_cond pr x = Panic.
Proof.
  intros Hc Hg Hm Hs Ht Hb.
  assert (N : fm_transformers mods = []) by (apply fm_transformers_nil; assumption).
  assert (Tm : mapped_field mappings f = Ok t).
  { unfold mapped_field, target in *. destruct Ht as [(l & E)|[E ->]]; rewrite E; reflexivity. }
  assert (B : forall op x, is_str_op op = true -> sf_test X M t v op x = Panic).
  { intros op x Ho. unfold sf_test, flat_test, map_str.
    assert (K : forall s, cut_off M s -> split_path M s = Panic) by (intros s; apply split_cut_off).
    assert (D : forall s, split_path M s = Panic \/ exists z, split_path M s = Ok z).
    { intros s. unfold split_path. destruct (cut_at "["%char s) as [[b p]|]; [|right; eauto]. destruct (mhas b M); [|right; eauto].
      destruct p; [left; reflexivity|right; eauto]. }
    destruct (D t) as [Et|[[b1 p1] Et]].
    - rewrite Et. destruct op; try discriminate Ho; reflexivity.
    - destruct Hb as [Hb|Hb]; [rewrite (K _ Hb) in Et; discriminate|]. rewrite Et, (K _ Hb). destruct op; try discriminate Ho; reflexivity. }
  assert (T : exists c, pc_term (sf_test X M) mappings (fm_comparators mods) f v = Ok c /\ forall x, c x = Panic).
  { unfold pc_term. rewrite Tm. cbn [rbind]. eexists. split; [reflexivity|]. intros x.
    destruct (named_run (sf_test X M) mods t v) as (l & Hl & E & Nl).
    assert (Hop : forall op, In op l -> is_str_op op = true).
    { clear - Hl Hs. induction Hl as [|m op mods l Ho Hl IH|m mods l Hn Hl IH]; intros o Hi.
      - destruct Hi.
      - destruct Hi as [<-|Hi]; [apply (Hs m); [now left|assumption]|]. apply IH; [|assumption]. intros m' op' H. apply Hs. now right.
      - apply IH; [|assumption]. intros m' op' H. apply Hs. now right. }
    destruct (fm_comparators mods) as [|c0 cs].
    - rewrite p_all_cons, (B OpIEq x eq_refl). reflexivity.
    - rewrite E. destruct l as [|op l]; [discriminate (proj1 Nl eq_refl)|]. cbn [map]. rewrite p_all_cons, B; [reflexivity|].
      apply Hop. now left. }
  destruct T as (c & Ec & Pc).
  unfold pc_compile. cbn [read_rules option_map rmap]. unfold pc_srule. rewrite Hc. cbn [imap pc_sexpr]. rewrite Hg.
  unfold pc_search. cbn [se_keywords se_matchers concat app rmap]. unfold pc_fm. cbn [fm_mods fm_field fm_values rmap].
  unfold pc_value. rewrite N, Ec. cbn [rbind concat app].
  eexists. split; [reflexivity|]. intros x. cbn [pr_cond]. rewrite p_all_cons.
  assert (Z : (if fm_all mods then p_all [c] else p_any [c]) x = Panic).
  { destruct (fm_all mods); [rewrite p_all_cons, Pc|rewrite p_any_cons, Pc]; reflexivity. }
  rewrite Z. reflexivity.
Qed.
End Flat.
