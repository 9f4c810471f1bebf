From Coq Require Import Lia.
From Verif Require Import GoBase GoFacts Predicates FalcoModel SpecFalco FalcoFacts GrammarModel RecoverModel SpecRecover.

(** ** Trees without missing parts *)
Fixpoint full_term (t : term) : bool :=
  match t with
  | TNot t' => full_term t'
  | TParen e => forallb (fun c => match c with [] => false | _ => true end && forallb full_term c) e
  | _ => true
  end.
Definition full (e : expr) : bool := forallb (fun c => match c with [] => false | _ => true end && forallb full_term c) e.
Scheme g_term_m := Induction for g_term Sort Prop with g_and_m := Induction for g_and Sort Prop with g_expr_m := Induction for g_expr Sort Prop.
Lemma g_full ts e : g_expr ts e -> full e = true.
Proof.
  revert ts e. apply (g_expr_m (fun ts t _ => full_term t = true) (fun ts l _ => l <> [] /\ forallb full_term l = true) (fun ts e _ => full e = true)); intros; cbn [full_term]; try reflexivity; try assumption.
  - split; [discriminate|]. cbn. rewrite H. reflexivity.
  - split; [discriminate|]. cbn. rewrite H. apply H0.
  - destruct H as [N H]. unfold full. cbn [forallb]. rewrite H. destruct c; [contradiction|reflexivity].
  - destruct H as [N H]. unfold full in *. cbn [forallb]. rewrite H, H0. destruct c; [contradiction|reflexivity].
Qed.
Definition full_decl (d : decl) : bool :=
  match d with DRule d => full (rd_cond d) | DFilter d => full (fd_cond d) | DMacro _ e _ => full e | _ => true end.
Lemma g_decl_full ts d : g_decl ts d -> full_decl d = true.
Proof. intros H. destruct H; cbn [full_decl rd_cond fd_cond]; try reflexivity; eapply g_full; eassumption. Qed.
Lemma g_defs_full ts ds : g_defs ts ds -> forallb full_decl ds = true.
Proof. intros H. induction H as [|ts d ts' ds D _ IH]; [reflexivity|]. cbn [forallb]. rewrite (g_decl_full _ _ D), IH. reflexivity. Qed.

Section Agree.
Context {R : Type}.
Variable ops : operations R.
Lemma somes_map {A B} (f : A -> B) l : somes (map (fun a => Some (f a)) l) = map f l.
Proof. induction l as [|a l IH]; cbn; [reflexivity|]. rewrite IH. reflexivity. Qed.
Lemma rmap_map {A B C} (f : B -> res C) (g : A -> B) l : rmap f (map g l) = rmap (fun a => f (g a)) l.
Proof. induction l as [|a l IH]; cbn [map rmap]; [reflexivity|]. rewrite IH. reflexivity. Qed.
Lemma rmap_ext {A B} (f g : A -> res B) l : (forall a, In a l -> f a = g a) -> rmap f l = rmap g l.
Proof. induction l as [|a l IH]; intros H; cbn [rmap]; [reflexivity|]. rewrite (H a (or_introl eq_refl)), IH; [reflexivity|]. intros b Hb. apply H. right. exact Hb. Qed.
Lemma nonempty_all {A} (e : list (list A)) (g : list A -> bool) {B} (f : A -> B) :
  forallb (fun c => match c with [] => false | _ => true end && g c) e = true ->
  List.filter (fun c => match c with [] => false | _ => true end) (map (map f) e) = map (map f) e.
Proof.
  induction e as [|c e IH]; intros H; [reflexivity|]. cbn [forallb] in H. apply andb_prop in H. destruct H as [H1 H2]. apply andb_prop in H1. destruct H1 as [H1 _].
  cbn [map List.filter]. destruct c as [|a c]; [discriminate|]. cbn [map]. rewrite IH by exact H2. reflexivity.
Qed.
Definition macros_of (M : gomap expr) : gomap (option pexpr) := map (fun p => (fst p, Some (pe_of (snd p)))) M.
Lemma mget_macros x M : mget x (macros_of M) = option_map (fun e => Some (pe_of e)) (mget x M).
Proof. unfold macros_of. induction M as [|[y e] M IH]; cbn; [reflexivity|]. destruct (seqb x y); [reflexivity|exact IH]. Qed.
Lemma visit_expr_agree (vp : pterm -> res (criterion R)) vt e : full e = true ->
  (forall t, full_term t = true -> vp (pt_of t) = vt t) -> visit_pexpr_with vp (Some (pe_of e)) = visit_expr_with vt e.
Proof.
  intros F H. unfold visit_pexpr_with, visit_expr_with, pe_of. cbn [deref rbind].
  rewrite (nonempty_all e _ _ F), rmap_map. erewrite rmap_ext; [reflexivity|].
  intros c Hc. cbn beta. rewrite somes_map, rmap_map. erewrite rmap_ext; [reflexivity|]. intros t Ht. apply H.
  unfold full in F. rewrite forallb_forall in F. specialize (F c Hc). apply andb_prop in F. destruct F as [_ F]. rewrite forallb_forall in F. exact (F t Ht).
Qed.
Lemma visit_agree n : forall M L t, (forall x e, mget x M = Some e -> full e = true) -> full_term t = true ->
  visit_pterm ops n (macros_of M) L (pt_of t) = visit_term ops n M L t.
Proof.
  induction n as [|n IH]; intros M L t FM F; [reflexivity|]. destruct t; cbn [visit_term pt_of visit_pterm]; try reflexivity.
  - rewrite mget_macros. destruct (mget x M) as [m|] eqn:Q; [|reflexivity]. cbn [option_map]. apply visit_expr_agree; [exact (FM x m Q)|]. intros t Ht. apply IH; assumption.
  - cbn [deref rbind]. rewrite IH by assumption. reflexivity.
  - apply (visit_expr_agree _ _ e); [exact F|]. intros t Ht. apply IH; assumption.
Qed.
Lemma mset_macros x e M : mset x (Some (pe_of e)) (macros_of M) = macros_of (mset x e M).
Proof. unfold mset, macros_of. reflexivity. Qed.
Definition st_of (st : cstate R) : pstate R := mkPState (cs_rules st) (cs_filters st) (cs_lists st) (macros_of (cs_macros st)).
Definition full_st (st : cstate R) : Prop := forall x e, mget x (cs_macros st) = Some e -> full e = true.
Lemma def_step_full d st : full_decl d = true -> full_st st -> full_st (def_step st d).
Proof.
  intros D F. destruct d as [d|d|y e ap|y it|v]; try exact F. cbn [def_step]. intros x e'. cbn [cs_macros mset]. unfold mset. cbn [mget]. destruct (seqb x y); [|apply F].
  intros [= <-]. exact D.
Qed.
Lemma tags_agree l : (match po_tags (po_of l) with Some s => [TagList (extract_list s)] | None => [] end) = get_tags l.
Proof. unfold get_tags, po_of. cbn [po_tags]. destruct (first_opt _ l); reflexivity. Qed.
Lemma actions_agree l : texts_of (po_actions (po_of l)) = get_actions l.
Proof. unfold get_actions, po_of. cbn [po_actions]. destruct (first_opt _ l); reflexivity. Qed.
Lemma prefilter_agree l : texts_of (po_prefilter (po_of l)) = get_prefilter l.
Proof. unfold get_prefilter, po_of. cbn [po_prefilter]. destruct (first_opt _ l); reflexivity. Qed.
Lemma enabled_agree l : p_enabled (po_enabled (po_of l)) = Ok (get_enabled l).
Proof. unfold get_enabled, po_of. cbn [po_enabled]. destruct (first_opt _ l); reflexivity. Qed.
Lemma step_agree n st d : full_decl d = true -> full_st st ->
  p_step ops n (st_of st) (pd_of d) = GoBase.rmap st_of (policy_step ops n st d).
Proof.
  intros D F. destruct d as [d|d|y e ap|y it|v]; cbn [pd_of p_step policy_step].
  - cbn [deref rbind]. unfold visit_pexpr, visit_expr. cbn [st_of ps_macros ps_lists].
    rewrite (visit_expr_agree _ (visit_term ops n (cs_macros st) (cs_lists st)) _ D) by (intros t Ht; apply visit_agree; [exact F|exact Ht]).
    destruct (visit_expr_with _ _); [|reflexivity|reflexivity|reflexivity]. cbn [rbind]. rewrite enabled_agree. cbn [rbind]. rewrite tags_agree, actions_agree, prefilter_agree. reflexivity.
  - cbn [deref rbind]. unfold visit_pexpr, visit_expr. cbn [st_of ps_macros ps_lists].
    rewrite (visit_expr_agree _ (visit_term ops n (cs_macros st) (cs_lists st)) _ D) by (intros t Ht; apply visit_agree; [exact F|exact Ht]).
    destruct (visit_expr_with _ _); [|reflexivity|reflexivity|reflexivity]. cbn [rbind]. destruct (fd_enabled d); reflexivity.
  - reflexivity.
  - reflexivity.
  - reflexivity.
Qed.
Lemma step_full n st d st' : full_decl d = true -> full_st st -> policy_step ops n st d = Ok st' -> full_st st'.
Proof.
  intros D F H. destruct d as [d|d|y e ap|y it|v]; cbn [policy_step] in H.
  - destruct (visit_expr ops n _ _ _); try discriminate. injection H as <-. exact F.
  - destruct (visit_expr ops n _ _ _); try discriminate. injection H as <-. exact F.
  - injection H as <-. apply (def_step_full (DMacro y e ap)); assumption.
  - injection H as <-. apply (def_step_full (DList y it)); assumption.
  - injection H as <-. exact F.
Qed.
Lemma walk_agree n ds : forall st, forallb full_decl ds = true -> full_st st ->
  p_walk ops n (st_of st) (map pd_of ds) = GoBase.rmap st_of (policy_walk ops n st ds) /\ (forall st', policy_walk ops n st ds = Ok st' -> full_st st').
Proof.
  induction ds as [|d ds IH]; intros st D F; cbn [map p_walk policy_walk]; [split; [reflexivity|intros st' [= <-]; exact F]|].
  cbn [forallb] in D. apply andb_prop in D. destruct D as [D1 D2]. rewrite (step_agree n st d D1 F).
  destruct (policy_step ops n st d) as [st1| | |] eqn:Q; try (split; [reflexivity|discriminate]). cbn [rbind GoBase.rmap].
  apply IH; [exact D2|]. exact (step_full n st d st1 D1 F Q).
Qed.
Lemma defs_agree n ds : forall st, forallb full_decl ds = true -> full_st st ->
  p_walk ops n (st_of st) (map pdef_of ds) = Ok (st_of (fold_left def_step ds st)) /\ full_st (fold_left def_step ds st).
Proof.
  induction ds as [|d ds IH]; intros st D F; cbn [map p_walk fold_left]; [split; [reflexivity|exact F]|].
  cbn [forallb] in D. apply andb_prop in D. destruct D as [D1 D2].
  replace (p_step ops n (st_of st) (pdef_of d)) with (Ok (st_of (def_step st d))) by (destruct d; reflexivity). cbn [rbind].
  apply IH; [exact D2|]. apply def_step_full; assumption.
Qed.
Definition full_file (f : file) : Prop := match f with Some (ds, _) => forallb full_decl ds = true | None => True end.
Lemma file_agree n st f : full_file f -> full_st st ->
  p_file ops n (st_of st) (pf_of f) = GoBase.rmap (fun p => (st_of (fst p), snd p)) (compile_file ops n st f) /\
  (forall st' b, compile_file ops n st f = Ok (st', b) -> full_st st').
Proof.
  intros D F. destruct f as [[ds errs]|]; cbn [pf_of option_map p_file compile_file fst snd].
  - destruct (defs_agree n ds st D F) as [A B]. rewrite A. cbn [rbind]. destruct (walk_agree n ds _ D B) as [A' B']. rewrite A'.
    destruct (policy_walk ops n _ ds) as [st1| | |]; try (split; [reflexivity|discriminate]). split; [reflexivity|].
    cbn [rbind]. intros st' b [= <- <-]. apply B'. reflexivity.
  - split; [reflexivity|]. intros st' b [= <- <-]. exact F.
Qed.
Lemma files_agree n fs : forall st, Forall full_file fs -> full_st st -> p_files ops n (st_of st) (map pf_of fs) = compile_files ops n st fs.
Proof.
  induction fs as [|f fs IH]; intros st D F; cbn [map p_files compile_files]; [reflexivity|].
  apply Forall_cons_iff in D. destruct D as [D1 D2]. destruct (file_agree n st f D1 F) as [A B]. rewrite A.
  destruct (compile_file ops n st f) as [[st1 b]| | |]; try reflexivity. cbn [rbind GoBase.rmap fst snd]. destruct b; [reflexivity|]. apply IH; [exact D2|]. apply (B st1 false eq_refl).
Qed.
Lemma compile_agree n fs : Forall full_file fs -> p_compile ops n (map pf_of fs) = compile ops n fs.
Proof. intros H. apply (files_agree n fs cstate0 H). intros x e Q. discriminate. Qed.

(** ** Errors *)
Lemma some_means n fs : forall st r, p_files ops n st fs = Ok (Some r) -> Forall (fun f => ~ faulty f) fs.
Proof.
  induction fs as [|f fs IH]; intros st r H; [constructor|]. cbn [p_files] in H. destruct (p_file ops n st f) as [[st' err]| | |] eqn:Q; try discriminate. cbn [rbind] in H.
  destruct err; [discriminate|]. constructor; [|exact (IH st' r H)]. intros Fa. destruct f as [[[defs pol] errs]|]; cbn [p_file] in Q; [|discriminate].
  cbn [faulty] in Fa. subst errs. destruct (p_walk ops n st defs); try discriminate. cbn [rbind] in Q. destruct (p_walk ops n _ pol); discriminate.
Qed.
Lemma visit_begun n ms ls o c : visit_pexpr ops n ms ls o = Ok c -> begun o.
Proof. unfold visit_pexpr, visit_pexpr_with. destruct o as [[[ors|]]|]; cbn [deref rbind]; try discriminate. intros _. now exists ors. Qed.
Lemma step_parts n st d st' : p_step ops n st d = Ok st' -> has_parts d.
Proof.
  destruct d as [name desc cond o|id cond en|id cond|id its|]; cbn [p_step has_parts].
  - destruct name; [|discriminate]. destruct desc; [|discriminate]. cbn [deref rbind].
    destruct (visit_pexpr ops n (ps_macros st) (ps_lists st) cond) as [c| | |] eqn:E; try discriminate. apply visit_begun in E. cbn [rbind].
    destruct (po_enabled o) as [[w|]|]; cbn [p_enabled deref rbind]; try discriminate; intros _; repeat split; try discriminate; exact E.
  - destruct id; [|discriminate]. cbn [deref rbind].
    destruct (visit_pexpr ops n (ps_macros st) (ps_lists st) cond) as [c| | |] eqn:E; try discriminate. apply visit_begun in E. cbn [rbind].
    destruct en as [[w|]|]; cbn [p_enabled deref rbind]; try discriminate; intros _; repeat split; try discriminate; exact E.
  - destruct id; [discriminate|]. cbn [deref rbind]. discriminate.
  - destruct id; [discriminate|]. cbn [deref rbind]. discriminate.
  - intros _. exact I.
Qed.
Lemma walk_parts n ds : forall st st', p_walk ops n st ds = Ok st' -> Forall has_parts ds.
Proof.
  induction ds as [|d ds IH]; intros st st' H; [constructor|]. cbn [p_walk] in H. destruct (p_step ops n st d) as [s1| | |] eqn:E; try discriminate.
  constructor; [exact (step_parts _ _ _ _ E)|]. cbn [rbind] in H. exact (IH _ _ H).
Qed.
Lemma survives n pre f post : forall st x, p_files ops n st (pre ++ f :: post)%list = Ok x -> Forall (fun f => ~ faulty f) pre ->
  forall defs pol errs, f = Some (defs, pol, errs) -> Forall has_parts (defs ++ pol)%list.
Proof.
  induction pre as [|g pre IH]; intros st x H Hp defs pol errs ->; cbn [List.app p_files] in H.
  - cbn [p_file] in H. destruct (p_walk ops n st defs) as [s1| | |] eqn:E1; try discriminate. cbn [rbind] in H.
    destruct (p_walk ops n s1 pol) as [s2| | |] eqn:E2; try discriminate. rewrite Forall_app. split; [exact (walk_parts _ _ _ _ E1)|exact (walk_parts _ _ _ _ E2)].
  - inversion Hp as [|? ? Hg Hp']; subst. destruct (p_file ops n st g) as [[s1 err]| | |] eqn:E1; try discriminate. cbn [rbind] in H.
    assert (err = false).
    { destruct g as [[[de po] er]|]; cbn [p_file] in E1; [|exfalso; apply Hg; exact I]. destruct (p_walk ops n st de); try discriminate. cbn [rbind] in E1.
      destruct (p_walk ops n _ po); try discriminate. cbn [rbind] in E1. injection E1 as _ <-. cbn [faulty] in Hg. now destruct er. }
    subst err. exact (IH _ _ H Hp' _ _ _ eq_refl).
Qed.
Lemma pwalk_app n a b : forall st, p_walk ops n st (a ++ b)%list = rbind (p_walk ops n st a) (fun st' => p_walk ops n st' b).
Proof. induction a as [|d a IH]; intros st; cbn [List.app p_walk]; [reflexivity|]. destruct (p_step ops n st d); [apply IH|reflexivity|reflexivity|reflexivity]. Qed.
(** A file whose last declaration is cut. *)
Definition lethal (c : pdecl) : Prop := forall n st, p_step ops n st c = Panic \/ p_step ops n st c = NoFuel \/ p_step ops n st c = Fatal.
Lemma last_file n pre f post : forall st r, p_files ops n st (pre ++ [f])%list = Ok (Some r) ->
  exists st1 st2, p_file ops n st1 f = Ok (st2, false) /\
    forall f', p_files ops n st (pre ++ f' :: post)%list = rbind (p_file ops n st1 f') (fun q => if snd q then Ok None else p_files ops n (fst q) post).
Proof.
  induction pre as [|g pre IH]; intros st r H; cbn [List.app p_files] in *.
  - destruct (p_file ops n st f) as [[st' err]| | |] eqn:Q; try discriminate. cbn [rbind] in H. destruct err; [discriminate|]. exists st, st'. split; [exact Q|].
    intros f'. destruct (p_file ops n st f') as [[s b]| | |]; reflexivity.
  - destruct (p_file ops n st g) as [[st' err]| | |]; try discriminate. cbn [rbind] in *. destruct err; [discriminate|]. exact (IH st' r H).
Qed.
End Agree.

(** ** Cut declarations *)
Definition plain_toks (l : list tok) : Prop := Forall (fun t => reserved_text (tx t) = false) l.
Lemma run_plain l : plain_toks l -> text_run l = (l, []).
Proof. intros H. induction H as [|t l Ht _ IH]; [reflexivity|]. cbn [text_run]. rewrite Ht, IH. reflexivity. Qed.
Lemma run_stop l d r : plain_toks l -> reserved_text (tx d) = true -> text_run (l ++ d :: r) = (l, d :: r).
Proof. intros H D. induction H as [|t l Ht _ IH]; cbn [List.app text_run]; [rewrite D; reflexivity|]. rewrite Ht, IH. reflexivity. Qed.
Lemma kbeq_refl k : kind_beq k k = true.
Proof. destruct k; reflexivity. Qed.
Lemma match_one ks t ts cs : In (tk t) ks -> run_calls (CMatch ks :: cs) (t :: ts) = option_map (cons (ChTok t)) (run_calls cs ts).
Proof.
  intros H. cbn [run_calls]. replace (existsb (kind_beq (tk t)) ks) with true; [reflexivity|]. symmetry. apply existsb_exists. exists (tk t). split; [exact H|apply kbeq_refl].
Qed.
Lemma match_end ks cs : run_calls (CMatch ks :: cs) [] = Some [].
Proof. reflexivity. Qed.
Lemma text_end l cs : plain_toks l -> run_calls (CText :: cs) l = option_map (cons (ChText l)) (run_calls cs []).
Proof. intros H. cbn [run_calls]. rewrite (run_plain l H). destruct l; reflexivity. Qed.
Lemma text_stop l d r cs : l <> [] -> plain_toks l -> reserved_text (tx d) = true -> run_calls (CText :: cs) (l ++ d :: r)%list = option_map (cons (ChText l)) (run_calls cs (d :: r)).
Proof. intros N H D. cbn [run_calls]. rewrite (run_stop l d r H D). destruct l; [contradiction|reflexivity]. Qed.
Lemma firstn_plain m l : plain_toks l -> plain_toks (firstn m l).
Proof. intros H. revert m. induction H as [|t l Ht _ IH]; intros [|m]; cbn; constructor; [exact Ht|apply IH]. Qed.
Lemma firstn_over {A} m (l : list A) x r : firstn m (l ++ x :: r) = firstn m l \/ exists j, firstn m (l ++ x :: r) = (l ++ x :: firstn j r)%list.
Proof.
  rewrite firstn_app. destruct (m - length l) as [|j] eqn:E; [left; rewrite app_nil_r; reflexivity|right; exists j].
  rewrite firstn_all2 by lia. reflexivity.
Qed.
Ltac one := rewrite match_one by (cbn [In]; auto).
Lemma cut_rule_decl ts : cut_rule ts -> exists nm ds, cut_decl ts = Some (PRule nm ds None no_opts).
Proof.
  intros H. destruct H as [k r d1 n d d2 n' c m Kk Kr K1 Nn Pn Kd Xd K2 Nn' Pn' Kc Xc M]. destruct m as [|[|m]]; [lia|lia|]. clear M. cbn [firstn].
  assert (Rd : reserved_text (tx d) = true) by (rewrite Xd; reflexivity). assert (Rc : reserved_text (tx c) = true) by (rewrite Xc; reflexivity).
  assert (Q : exists l, run_calls rule_calls (k :: r :: firstn m (d1 :: n ++ d :: d2 :: n' ++ [c])%list) = Some l /\ sub_in l = false).
  { unfold rule_calls. one. one. destruct m as [|m]; [eexists; split; [reflexivity|reflexivity]|]. cbn [firstn]. one.
    destruct (firstn_over m n d (d2 :: n' ++ [c])%list) as [-> |[j -> ]].
    - rewrite text_end by (apply firstn_plain; exact Pn). eexists; split; reflexivity.
    - rewrite (text_stop n d _ _ Nn Pn Rd). one. destruct j as [|j]; [eexists; split; reflexivity|]. cbn [firstn]. one.
      destruct (firstn_over j n' c []) as [-> |[i -> ]].
      + rewrite text_end by (apply firstn_plain; exact Pn'). eexists; split; reflexivity.
      + rewrite (text_stop n' c _ _ Nn' Pn' Rc). one. rewrite firstn_nil. eexists; split; reflexivity. }
  destruct Q as (l & Q & S). unfold cut_decl. rewrite Kr, Q. cbn [option_map]. rewrite S. eauto.
Qed.
Lemma cut_filter_decl ts : cut_filter ts -> exists id, cut_decl ts = Some (PFilter id None None).
Proof.
  intros H. destruct H as [k f d1 x c m Kk Kf K1 Kx Kc M]. destruct m as [|[|m]]; [lia|lia|]. clear M. cbn [firstn].
  assert (Q : exists l, run_calls filter_calls (k :: f :: firstn m [d1; x; c]) = Some l /\ sub_in l = false).
  { unfold filter_calls. one. rewrite match_one by (destruct Kf as [-> | -> ]; cbn [In]; auto).
    destruct m as [|[|[|m]]]; cbn [firstn]; try one; try one; try one; try (eexists; split; reflexivity). destruct m; eexists; split; reflexivity. }
  destruct Q as (l & Q & S). unfold cut_decl. destruct Kf as [-> | -> ]; rewrite Q; cbn [option_map]; rewrite S; eauto.
Qed.
Lemma cut_name_decl ts : cut_name ts -> exists c, cut_decl ts = Some c /\ ((exists e, c = PMacro None e) \/ exists e, c = PList None e).
Proof.
  intros H. destruct H as [k f d1 m Kk Kf K1 M]. destruct m as [|[|m]]; [lia|lia|]. clear M. cbn [firstn].
  assert (F : firstn m [d1] = [] \/ firstn m [d1] = [d1]) by (destruct m as [|m]; [left; reflexivity|right; cbn [firstn]; rewrite firstn_nil; reflexivity]).
  destruct Kf as [Kf|Kf]; unfold cut_decl; rewrite Kf; destruct F as [-> | -> ]; unfold macro_calls, list_calls; cbn [run_calls existsb]; rewrite Kk, Kf, ?K1;
    cbn [kind_beq orb run_calls existsb option_map]; eexists; (split; [reflexivity|]); unfold ids_in; cbn [flat_map]; rewrite ?Kk, ?Kf, ?K1; cbn [kind_beq nth_error List.app option_map]; eauto.
Qed.
Lemma cut_condition_decl ts : cut_condition ts -> exists nm ds, cut_decl ts = Some (PRule (Some nm) (Some ds) (Some cut_expr) no_opts).
Proof.
  intros H. destruct H as [k r d1 n d d2 n' c d3 Kk Kr K1 Nn Pn Kd Xd K2 Nn' Pn' Kc Xc K3].
  assert (Rd : reserved_text (tx d) = true) by (rewrite Xd; reflexivity). assert (Rc : reserved_text (tx c) = true) by (rewrite Xc; reflexivity).
  unfold cut_decl. rewrite Kr. unfold rule_calls. one. one. one. rewrite (text_stop n d _ _ Nn Pn Rd). one. one. rewrite (text_stop n' c _ _ Nn' Pn' Rc). one. one.
  cbn [run_calls option_map]. eexists _, _. reflexivity.
Qed.

Section Cut.
Context {R : Type}.
Variable ops : operations R.
Lemma good_file n st1 ds st2 : p_file ops n st1 (pf_of (Some (ds, false))) = Ok (st2, false) ->
  exists sa, p_walk ops n st1 (map pdef_of ds) = Ok sa /\ p_walk ops n sa (map pd_of ds) = Ok st2.
Proof.
  cbn [pf_of option_map p_file fst snd]. destruct (p_walk ops n st1 (map pdef_of ds)) as [sa| | |]; try discriminate. cbn [rbind].
  destruct (p_walk ops n sa (map pd_of ds)) as [sb| | |] eqn:Q; try discriminate. cbn [rbind]. intros [= <-]. eauto.
Qed.
Definition is_def (c : pdecl) : bool := match c with PRule _ _ _ _ | PFilter _ _ _ => false | _ => true end.
Lemma cut_crash n pre ds c post r : p_compile ops n (pre ++ [pf_of (Some (ds, false))])%list = Ok (Some r) ->
  (forall st, p_step ops n st c = Panic) -> p_compile ops n (pre ++ cut_file ds c :: post)%list = Panic.
Proof.
  intros H C. unfold p_compile in *. destruct (last_file ops n pre _ post _ r H) as (st1 & st2 & Q & K). rewrite K. clear K H.
  destruct (good_file n st1 ds st2 Q) as (sa & A & B). unfold cut_file. cbn [p_file]. rewrite pwalk_app, A. cbn [rbind].
  assert (D : p_walk ops n sa [match c with PRule _ _ _ _ | PFilter _ _ _ => POther | _ => c end] = Ok sa \/
              p_walk ops n sa [match c with PRule _ _ _ _ | PFilter _ _ _ => POther | _ => c end] = Panic).
  { cbn [p_walk]. destruct c; try (right; rewrite C; reflexivity); left; reflexivity. }
  destruct D as [D|D]; rewrite D; [|reflexivity]. cbn [rbind]. rewrite pwalk_app, B. cbn [rbind p_walk]. rewrite C. reflexivity.
Qed.
Lemma unbegun n M L c : ~ begun c -> visit_pexpr ops n M L c = Panic.
Proof. intros H. unfold visit_pexpr, visit_pexpr_with. destruct c as [[[ors|]]|]; try reflexivity. exfalso. apply H. now exists ors. Qed.
Lemma unusable_step n st d : unusable d -> p_step ops n st d = Panic.
Proof.
  destruct d as [name desc cond o|id cond en|id cond|id its|]; cbn [unusable p_step].
  - intros [->|[->|H]]; [reflexivity|destruct name; reflexivity|]. rewrite (unbegun n _ _ cond H). destruct name; [|reflexivity]. destruct desc; reflexivity.
  - intros [->|H]; [reflexivity|]. rewrite (unbegun n _ _ cond H). destruct id; reflexivity.
  - intros ->; reflexivity.
  - intros ->; reflexivity.
  - intros [].
Qed.
Lemma unusable_crash n pre defs pol d rest errs post r : p_compile ops n (pre ++ [Some (defs, pol, false)])%list = Ok (Some r) -> unusable d ->
  p_compile ops n (pre ++ Some (defs, pol ++ d :: rest, errs) :: post)%list = Panic.
Proof.
  intros H U. unfold p_compile in *. destruct (last_file ops n pre _ post _ r H) as (st1 & st2 & Q & K). rewrite K. clear K H.
  cbn [p_file] in *. destruct (p_walk ops n st1 defs) as [sa| | |]; try discriminate. cbn [rbind] in *. rewrite pwalk_app.
  destruct (p_walk ops n sa pol) as [sb| | |]; try discriminate. cbn [rbind p_walk]. rewrite (unusable_step n sb d U). reflexivity.
Qed.
Lemma crash_rule nm ds n st : p_step ops n st (PRule nm ds None no_opts) = Panic.
Proof. cbn [p_step]. destruct nm; [|reflexivity]. destruct ds; reflexivity. Qed.
Lemma crash_filter id n st : p_step ops n st (PFilter id None None) = Panic.
Proof. cbn [p_step]. destruct id; reflexivity. Qed.
Lemma cut_off_crashes ts n pre ds post r : cut_rule ts \/ cut_filter ts \/ cut_name ts ->
  p_compile ops n (pre ++ [pf_of (Some (ds, false))])%list = Ok (Some r) ->
  exists c, cut_decl ts = Some c /\ p_compile ops n (pre ++ cut_file ds c :: post)%list = Panic.
Proof.
  intros [H|[H|H]] K.
  - destruct (cut_rule_decl ts H) as (nm & d & E). eexists. split; [exact E|]. apply (cut_crash _ _ _ _ _ r K). intros st. apply crash_rule.
  - destruct (cut_filter_decl ts H) as (id & E). eexists. split; [exact E|]. apply (cut_crash _ _ _ _ _ r K). intros st. apply crash_filter.
  - destruct (cut_name_decl ts H) as (c & E & [[e -> ]|[e -> ]]); eexists; (split; [exact E|]); apply (cut_crash _ _ _ _ _ r K); intros st; reflexivity.
Qed.
Lemma cut_condition_reported ts n pre ds post r : cut_condition ts -> 0 < n ->
  p_compile ops n (pre ++ [pf_of (Some (ds, false))])%list = Ok (Some r) ->
  exists c, cut_decl ts = Some c /\ p_compile ops n (pre ++ cut_file ds c :: post)%list = Ok None.
Proof.
  intros C N H. destruct (cut_condition_decl ts C) as (nm & d & E). eexists. split; [exact E|]. unfold p_compile in *.
  destruct (last_file ops n pre _ post _ r H) as (st1 & st2 & Q & K). rewrite K. clear K H.
  destruct (good_file n st1 ds st2 Q) as (sa & A & B). unfold cut_file. cbn [p_file]. rewrite pwalk_app, A. cbn [rbind p_walk p_step]. rewrite pwalk_app, B. cbn [rbind p_walk p_step deref].
  destruct n as [|n]; [lia|]. reflexivity.
Qed.

Lemma cut_texts k r d1 n d d2 n' c d3 :
  tk k = KDecl -> tk r = KRule -> tk d1 = KDef -> n <> [] -> Forall (fun t => reserved_text (tx t) = false) n ->
  tk d = KDesc -> tx d = "desc" -> tk d2 = KDef -> n' <> [] -> Forall (fun t => reserved_text (tx t) = false) n' ->
  tk c = KCond -> tx c = "condition" -> tk d3 = KDef ->
  exists e, begun (Some e) /\ cut_decl (k :: r :: d1 :: n ++ d :: d2 :: n' ++ [c; d3])%list = Some (PRule (Some (source_text n)) (Some (source_text n')) (Some e) no_opts).
Proof.
  intros Kk Kr K1 Nn Pn Kd Xd K2 Nn' Pn' Kc Xc K3. exists cut_expr. split; [eexists; reflexivity|].
  assert (Rd : reserved_text (tx d) = true) by (rewrite Xd; reflexivity). assert (Rc : reserved_text (tx c) = true) by (rewrite Xc; reflexivity).
  unfold cut_decl. rewrite Kr. unfold rule_calls. one. one. one. rewrite (text_stop n d _ _ Nn Pn Rd). one. one. rewrite (text_stop n' c _ _ Nn' Pn' Rc). one. one.
  reflexivity.
Qed.
Lemma cut_named_decl ts c : cut_named ts c -> cut_decl ts = Some c.
Proof.
  intros H. destruct H as [k f d1 x c m Kk Kf K1 Kx Kc M|k f d1 x c m Kk Kf K1 Kx Kc M]; do 4 (destruct m as [|m]; [lia|]);
    (destruct m as [|m]; [|destruct m]); cbn [firstn]; unfold cut_decl; rewrite Kf; unfold macro_calls, list_calls; cbn [run_calls existsb];
    rewrite ?Kk, ?Kf, ?K1, ?Kx, ?Kc; cbn [kind_beq orb run_calls existsb option_map]; unfold ids_in; cbn [flat_map]; rewrite ?Kk, ?Kf, ?K1, ?Kx, ?Kc; reflexivity.
Qed.
Lemma cut_named_reported ts c n pre post r : cut_named ts c -> p_compile ops n pre = Ok (Some r) ->
  cut_decl ts = Some c /\ p_compile ops n (pre ++ cut_file [] c :: post)%list = Ok None.
Proof.
  intros C H. split; [now apply cut_named_decl|]. unfold p_compile in *. revert H. generalize (@pstate0 R). induction pre as [|g pre IH]; intros st H; cbn [List.app p_files] in *.
  - destruct C; reflexivity.
  - destruct (p_file ops n st g) as [[st' err]| | |]; try discriminate. cbn [rbind] in *. destruct err; [discriminate|]. exact (IH st' H).
Qed.

(** ** Intact trees *)
Variable P : string -> Prop.
Hypothesis T : ops_total ops P.
Definition calm {A} (x : res A) : Prop := (exists a, x = Ok a) \/ x = NoFuel.
Lemma calm_bind {A B} (x : res A) (f : A -> res B) : calm x -> (forall a, x = Ok a -> calm (f a)) -> calm (rbind x f).
Proof. intros [[a -> ]| -> ] H; [apply H; reflexivity|right; reflexivity]. Qed.
Lemma calm_rmap {A B} (f : A -> res B) l : (forall a, In a l -> calm (f a)) -> calm (rmap f l).
Proof.
  induction l as [|a l IH]; intros H; cbn [rmap]; [left; eauto|]. apply calm_bind; [apply H; left; reflexivity|]. intros b _. apply calm_bind; [apply IH; intros c Hc; apply H; right; exact Hc|].
  intros bs _. left. eauto.
Qed.
Lemma calm_reduce n : forall L s, calm (reduce_list n L s).
Proof.
  induction n as [|n IH]; intros L s; cbn [reduce_list]; [right; reflexivity|]. destruct (mget s L); [|left; eauto]. apply calm_bind; [apply calm_rmap; intros a _; apply IH|]. intros a _. left. eauto.
Qed.
Lemma somes_in {A} (l : list (option A)) a : In a (somes l) -> In (Some a) l.
Proof. induction l as [|[b|] l IH]; cbn; [contradiction|intros [-> |H]; [left; reflexivity|right; apply IH, H]|intros H; right; apply IH, H]. Qed.
Lemma calm_expr vt o : intact_cond P o -> (forall t, intact P t -> calm (vt t)) -> calm (@visit_pexpr_with R vt o).
Proof.
  intros (ors & -> & H) V. unfold visit_pexpr_with. cbn [deref rbind]. apply calm_bind; [|intros a _; left; eauto].
  apply calm_rmap. intros c Hc. apply filter_In in Hc. destruct Hc as [Hc _]. apply calm_bind; [|intros a _; left; eauto].
  apply calm_rmap. intros t Ht. apply V. apply (H c t Hc). apply somes_in, Ht.
Qed.
Lemma calm_term n : forall M L t, (forall x m, mget x M = Some m -> intact_cond P m) -> intact P t -> calm (visit_pterm ops n M L t).
Proof.
  destruct T as (T1 & T2 & T3). induction n as [|n IH]; intros M L t HM I; [right; reflexivity|]. destruct I as [text var neg un bin ex isin ispm atoms In1 In2 In3 In4]. cbn [visit_pterm].
  destruct var.
  { destruct (mget text M) as [m|] eqn:Q; [|left; eauto]. apply calm_expr; [exact (HM text m Q)|]. intros t Ht. apply IH; assumption. }
  destruct neg as [o|].
  { destruct (In1 o eq_refl) as (t & -> & It). cbn [deref rbind]. apply calm_bind; [apply IH; assumption|]. intros c _. left. eauto. }
  destruct un as [b|].
  { destruct In2 as (a & l & -> & Pa); [left; discriminate|]. cbn [nth_error deref rbind]. destruct b; [|left; eauto]. destruct (T1 a Pa) as [c ->]. left. cbn. eauto. }
  destruct bin as [ob|].
  { destruct In2 as (a & l & -> & Pa); [right; left; discriminate|]. destruct In3 as (a' & b & l' & E & Pb); [discriminate|]. injection E as <- ->. cbn [nth_error deref rbind].
    destruct ob as [op|]; [|left; eauto]. left. destruct op; cbn [compile_bin];
      match goal with |- context [op_compare ops a b ?o] => destruct (T2 a b o Pa Pb) as [c ->] end; cbn; eauto. }
  destruct ex as [e|].
  { destruct (In4 e eq_refl) as (ors & -> & Ho). apply calm_expr; [exists ors; split; [reflexivity|exact Ho]|]. intros t Ht. apply IH; assumption. }
  destruct (isin || ispm) eqn:Q; [|left; eauto]. destruct In2 as (a & l & -> & Pa); [apply orb_true_iff in Q; tauto|]. cbn [nth_error deref rbind tl].
  apply calm_bind; [unfold extract_list_from_atoms; apply calm_bind; [apply calm_rmap; intros s _; apply calm_reduce|intros y _; left; eauto]|].
  intros ys _. destruct (T3 a ys (if isin then OpEq else OpContains) Pa) as [c ->]; [destruct isin; auto|]. left. cbn. eauto.
Qed.
Definition intact_st (st : pstate R) : Prop := forall x m, mget x (ps_macros st) = Some m -> intact_cond P m.
Lemma calm_step n st d : intact_st st -> intact_decl P d -> calm (p_step ops n st d) /\ forall st', p_step ops n st d = Ok st' -> intact_st st'.
Proof.
  intros S D. destruct d as [nm ds c o|id c en|id c|id its|]; cbn [intact_decl p_step] in *.
  - destruct D as (D1 & D2 & D3 & D4). destruct nm as [nm|]; [|contradiction]. destruct ds as [ds|]; [|contradiction]. cbn [deref rbind].
    assert (V : calm (visit_pexpr ops n (ps_macros st) (ps_lists st) c)) by (apply calm_expr; [exact D3|]; intros t Ht; apply calm_term; assumption).
    destruct V as [[cr -> ]| -> ]; [|split; [right; reflexivity|discriminate]]. cbn [rbind]. destruct (po_enabled o) as [[s|]|]; [|contradiction|]; cbn; (split; [left; eauto|intros st' [= <-]; exact S]).
  - destruct D as (D1 & D3 & D4). destruct id as [nm|]; [|contradiction]. cbn [deref rbind].
    assert (V : calm (visit_pexpr ops n (ps_macros st) (ps_lists st) c)) by (apply calm_expr; [exact D3|]; intros t Ht; apply calm_term; assumption).
    destruct V as [[cr -> ]| -> ]; [|split; [right; reflexivity|discriminate]]. cbn [rbind]. destruct en as [[s|]|]; [|contradiction|]; cbn; (split; [left; eauto|intros st' [= <-]; exact S]).
  - destruct D as (D1 & D3). destruct id as [nm|]; [|contradiction]. cbn [deref rbind]. split; [left; eauto|]. intros st' [= <-] x m. cbn [ps_macros]. unfold mset. cbn [mget].
    destruct (seqb x nm); [intros [= <-]; exact D3|apply S].
  - destruct id as [nm|]; [|contradiction]. cbn [deref rbind]. split; [left; eauto|]. intros st' [= <-]. exact S.
  - split; [left; eauto|]. intros st' [= <-]. exact S.
Qed.
Lemma calm_walk n ds : forall st, intact_st st -> Forall (intact_decl P) ds -> calm (p_walk ops n st ds) /\ forall st', p_walk ops n st ds = Ok st' -> intact_st st'.
Proof.
  induction ds as [|d ds IH]; intros st S D; cbn [p_walk]; [split; [left; eauto|intros st' [= <-]; exact S]|].
  apply Forall_cons_iff in D. destruct D as [D1 D2]. destruct (calm_step n st d S D1) as [C K]. destruct C as [[st1 E]|E]; rewrite E in *; cbn [rbind]; [|split; [right; reflexivity|discriminate]].
  apply IH; [apply K; reflexivity|exact D2].
Qed.
Lemma calm_files n fs : forall st, intact_st st -> Forall (intact_file P) fs ->
  calm (p_files ops n st fs) /\ (Exists faulty fs -> p_files ops n st fs = Ok None \/ p_files ops n st fs = NoFuel).
Proof.
  induction fs as [|f fs IH]; intros st S D; cbn [p_files].
  - split; [left; eauto|]. intros E. exfalso. apply Exists_nil in E. exact E.
  - apply Forall_cons_iff in D. destruct D as [D1 D2]. destruct f as [[[defs pol] errs]|]; cbn [p_file].
    + destruct D1 as [Dd Dp]. destruct (calm_walk n defs st S Dd) as [C K]. destruct C as [[st1 E]|E]; rewrite E in *; cbn [rbind]; [|split; [right; reflexivity|right; reflexivity]].
      destruct (calm_walk n pol st1 (K st1 eq_refl) Dp) as [C' K']. destruct C' as [[st2 E']|E']; rewrite E' in *; cbn [rbind]; [|split; [right; reflexivity|right; reflexivity]].
      destruct errs; [split; [left; eauto|left; reflexivity]|]. destruct (IH st2 (K' st2 eq_refl) D2) as [C2 F2]. split; [exact C2|]. intros X. apply F2. apply Exists_cons in X. destruct X as [X|X]; [discriminate|exact X].
    + cbn [rbind]. split; [left; eauto|left; reflexivity].
Qed.
Lemma intact_reported n fs : Forall (intact_file P) fs -> Exists faulty fs -> p_compile ops n fs = Ok None \/ p_compile ops n fs = NoFuel.
Proof. intros D. apply (calm_files n fs pstate0); [|exact D]. intros x m H. discriminate. Qed.
End Cut.

(** ** Whole trees are intact *)
Section Whole.
Variable P : string -> Prop.
Lemma whole_term t : (forall a, In a (term_operands t) -> P a) -> intact P (pt_of t).
Proof.
  induction t as [x|t IHt|a|l op rr|l args|l args|e IHe] using term_ind'; intros H; cbn [pt_of term_operands] in *; constructor; try discriminate;
    try (intros [Q|[Q|[Q|Q]]]; solve [discriminate Q | contradiction (Q eq_refl) | eexists _, _; split; [reflexivity|apply H; cbn; auto]]);
    try (intros Q; solve [contradiction (Q eq_refl)]).
  - intros o [= <-]. eexists. split; [reflexivity|]. apply IHt, H.
  - intros _. eexists _, _, _. split; [reflexivity|]. apply H. cbn; auto.
  - intros e0 [= <-]. eexists. split; [reflexivity|]. intros c t Hc Ht. apply in_map_iff in Hc. destruct Hc as (c0 & <- & Hc). apply in_map_iff in Ht. destruct Ht as (t0 & [= <-] & Ht).
    rewrite Forall_forall in IHe. specialize (IHe c0 Hc). rewrite Forall_forall in IHe. apply (IHe t0 Ht). intros a Ha. apply H.
    apply in_concat. eexists. split; [apply in_map_iff; eexists; split; [reflexivity|exact Hc]|]. apply in_concat. eexists. split; [apply in_map_iff; eexists; split; [reflexivity|exact Ht]|]. exact Ha.
Qed.
Lemma whole_expr e : (forall a, In a (expr_operands e) -> P a) -> intact_cond P (Some (pe_of e)).
Proof.
  intros H. eexists. split; [reflexivity|]. intros c t Hc Ht. apply in_map_iff in Hc. destruct Hc as (c0 & <- & Hc). apply in_map_iff in Ht. destruct Ht as (t0 & [= <-] & Ht).
  apply whole_term. intros a Ha. apply H. apply in_concat. eexists. split; [apply in_map_iff; eexists; split; [reflexivity|exact Hc]|]. apply in_concat. eexists. split; [apply in_map_iff; eexists; split; [reflexivity|exact Ht]|]. exact Ha.
Qed.
Lemma whole_decl d : (forall a, In a (decl_operands d) -> P a) -> intact_decl P (pd_of d).
Proof.
  destruct d as [d|d|x e ap|x it|v]; cbn [decl_operands pd_of intact_decl]; intros H; repeat split; try discriminate; try (apply whole_expr; exact H).
  - destruct d as [? ? ? o]. cbn [po_of po_enabled rd_opts]. destruct (first_opt _ o); discriminate.
  - destruct (fd_enabled d); discriminate.
Qed.
Lemma whole_file ds errs : (forall d a, In d ds -> In a (decl_operands d) -> P a) -> intact_file P (pf_of (Some (ds, errs))).
Proof.
  intros H. cbn. split; apply Forall_forall; intros p Hp; apply in_map_iff in Hp; destruct Hp as (d & <- & Hd).
  - destruct d; try exact I; cbn [pdef_of]; apply whole_decl; intros a; apply H, Hd.
  - apply whole_decl. intros a. apply H, Hd.
Qed.
End Whole.
Lemma whole_reported {R} (ops : operations R) P n fs : ops_total ops P -> (forall f ds errs d a, In f fs -> f = Some (ds, errs) -> In d ds -> In a (decl_operands d) -> P a) ->
  Exists (fun f => f = None \/ exists ds, f = Some (ds, true)) fs ->
  p_compile ops n (map pf_of fs) = Ok None \/ p_compile ops n (map pf_of fs) = NoFuel.
Proof.
  intros T H E. apply (intact_reported ops P T).
  - apply Forall_forall. intros p Hp. apply in_map_iff in Hp. destruct Hp as (f & <- & Hf). destruct f as [[ds errs]|]; [|exact I].
    apply whole_file. intros d a. apply (H _ ds errs d a Hf eq_refl).
  - apply Exists_exists in E. destruct E as (f & Hf & E). apply Exists_exists. exists (pf_of f). split; [apply in_map, Hf|]. destruct E as [-> |[ds -> ]]; [exact I|reflexivity].
Qed.
