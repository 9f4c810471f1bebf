(** * EvalOtelFacts3: accepted policies on logs; logs on which nothing panics, and logs on which everything does. *)
From Coq Require Import Lia Permutation.
From Verif Require Import GoBase GoFacts Predicates PolicyFacts SpecStrings FalcoModel SpecFalco FalcoFacts FalcoFacts2 FalcoFacts3 SigmaModel SpecSigma SigmaFacts
  EngineModel SpecEngine EngineFacts EngineFacts2 OtelModel SpecOtel OtelFacts OtelEngine PoolModel SpecPool PoolFacts4 InitModel SpecInit SpecOtelEngine OtelEngineFacts EvalModel SpecEval EvalFacts
  EvalOtel SpecEvalOtel EvalOtelFacts EvalOtelFacts2.

(** ** What the Boolean compiler accepts, this one accepts *)
Section Accept.
Context {R : Type}.
Variable ops : operations R.
Variables (tx : string -> pcrit R) (tc : string -> string -> operator -> pcrit R) (ta : string -> list string -> operator -> pcrit R).
Lemma rmap_goes {A B C} (f : A -> res B) (g : A -> res C) l bs : (forall a b, f a = Ok b -> exists c, g a = Ok c) -> rmap f l = Ok bs -> exists cs, rmap g l = Ok cs.
Proof.
  intros H. revert bs. induction l as [|a l IH]; intros bs E; [eexists; reflexivity|]. apply rbind_ok in E as (b & Hb & E). apply rbind_ok in E as (bs' & Hbs & _).
  destruct (H _ _ Hb) as (c & Hc). destruct (IH _ Hbs) as (cs & Hcs). exists (c :: cs). cbn [rmap]. rewrite Hc. cbn [rbind]. rewrite Hcs. reflexivity.
Qed.
Lemma expr_with_goes (f : term -> res (criterion R)) (g : term -> res (pcrit R)) e c : (forall t c, f t = Ok c -> exists d, g t = Ok d) ->
  visit_expr_with f e = Ok c -> exists d, pf_expr_with g e = Ok d.
Proof.
  intros H E. unfold visit_expr_with in E. apply rbind_ok in E as (cs & E & _). unfold pf_expr_with.
  apply (rmap_goes _ (fun conj => let* cs := rmap g conj in Ok (p_all cs))) in E as (ds & ->); [eexists; reflexivity|].
  intros cj b Hb. apply rbind_ok in Hb as (bs & Hb & _). destruct (rmap_goes f g cj bs H Hb) as (ds & ->). eexists. reflexivity.
Qed.
Lemma term_goes n M L : forall t c, visit_term ops n M L t = Ok c -> exists d, pf_term tx tc ta n M L t = Ok d.
Proof.
  induction n as [|n IH]; intros t c H; [discriminate|]. destruct t as [x|t|a|l op r|a args|a args|e]; cbn [visit_term pf_term] in *.
  - destruct (mget x M); [exact (expr_with_goes _ _ _ _ IH H)|eexists; reflexivity].
  - apply rbind_ok in H as (d & Hd & _). destruct (IH _ _ Hd) as (d' & ->). eexists. reflexivity.
  - eexists. reflexivity.
  - eexists. reflexivity.
  - apply rbind_ok in H as (it & -> & _). eexists. reflexivity.
  - apply rbind_ok in H as (it & -> & _). eexists. reflexivity.
  - exact (expr_with_goes _ _ _ _ IH H).
Qed.
Definition alike (a : cstate R) (b : pstate R) : Prop := cs_lists a = ps_lists b /\ cs_macros a = ps_macros b.
Lemma def_step_alike a b d : alike a b -> alike (def_step a d) (pf_def_step b d).
Proof. intros [H1 H2]. destruct d; split; cbn; congruence. Qed.
Lemma def_fold_alike ds : forall a b, alike a b -> alike (fold_left def_step ds a) (fold_left pf_def_step ds b).
Proof. induction ds as [|d ds IH]; intros a b H; [exact H|]. cbn [fold_left]. apply IH. now apply def_step_alike. Qed.
Lemma step_alike n a b d a' : alike a b -> policy_step ops n a d = Ok a' -> exists b', pf_policy_step tx tc ta n b d = Ok b' /\ alike a' b'.
Proof.
  intros H E. pose proof H as [H1 H2]. destruct d as [d|d|y e ap|y it|v].
  - cbn [policy_step pf_policy_step] in *. apply rbind_ok in E as (c & Hc & E). injection E as <-. unfold visit_expr in Hc. rewrite H1, H2 in Hc.
    destruct (expr_with_goes _ (pf_term tx tc ta n (ps_macros b) (ps_lists b)) _ _ (term_goes n _ _) Hc) as (d' & Hd). unfold pf_expr. rewrite Hd.
    eexists. split; [reflexivity|]. split; assumption.
  - cbn [policy_step pf_policy_step] in *. apply rbind_ok in E as (c & Hc & E). injection E as <-. unfold visit_expr in Hc. rewrite H1, H2 in Hc.
    destruct (expr_with_goes _ (pf_term tx tc ta n (ps_macros b) (ps_lists b)) _ _ (term_goes n _ _) Hc) as (d' & Hd). unfold pf_expr. rewrite Hd.
    eexists. split; [reflexivity|]. split; assumption.
  - injection E as <-. eexists. split; [reflexivity|]. exact (def_step_alike a b (DMacro y e ap) H).
  - injection E as <-. eexists. split; [reflexivity|]. exact (def_step_alike a b (DList y it) H).
  - injection E as <-. eexists. split; [reflexivity|]. exact H.
Qed.
Lemma walk_alike n ds : forall a b a', alike a b -> policy_walk ops n a ds = Ok a' -> exists b', pf_walk tx tc ta n b ds = Ok b' /\ alike a' b'.
Proof.
  induction ds as [|d ds IH]; intros a b a' H E.
  - injection E as <-. eexists. split; [reflexivity|assumption].
  - cbn [policy_walk pf_walk] in *. apply rbind_ok in E as (a1 & E1 & E). destruct (step_alike _ _ _ _ _ H E1) as (b1 & -> & H1). cbn [rbind]. eauto.
Qed.
Lemma files_alike n dss : forall a b x, alike a b -> compile_files ops n a (map (fun ds => Some (ds, false)) dss) = Ok (Some x) -> exists b', pf_files tx tc ta n b dss = Ok b'.
Proof.
  induction dss as [|ds dss IH]; intros a b x H E; [eexists; reflexivity|].
  cbn [map compile_files compile_file pf_files] in *. apply rbind_ok in E as ([a1 er] & E1 & E). apply rbind_ok in E1 as (a2 & E1 & E2). injection E2 as <- <-.
  destruct (walk_alike n ds _ _ _ (def_fold_alike ds a b H) E1) as (b1 & -> & H1). cbn [rbind]. eauto.
Qed.
Lemma compile_goes n dss x : compile ops n (map (fun ds => Some (ds, false)) dss) = Ok (Some x) -> exists y, pf_compile tx tc ta n dss = Ok y.
Proof.
  intros E. unfold compile in E. unfold pf_compile. destruct (files_alike n dss cstate0 pstate0 x) as (b & ->); [split; reflexivity|exact E|]. eexists. reflexivity.
Qed.
End Accept.

Section O.
Variable D : Type.
Variable parse_float : string -> option D.
Variables deq dlt dle : D -> D -> bool.
Variable regcomp : string -> option (string -> string).
Notation logs := (logs D).
Notation ops := (o_ops D parse_float deq dlt dle regcomp).
Notation test_run := (test_run D parse_float deq dlt dle).
Notation in_run := (in_run D parse_float deq dlt dle).
Notation t_run := (t_run D parse_float deq dlt dle).
Notation e_run := (e_run D parse_float deq dlt dle).
Notation rule_run := (rule_run D parse_float deq dlt dle).
Notation filter_run := (filter_run D parse_float deq dlt dle).
Notation rule_fires := (o_rule_fires D parse_float deq dlt dle).
Notation filter_fires := (o_filter_fires D parse_float deq dlt dle).
Notation atomic_of := (o_atomic D parse_float deq dlt dle).

Lemma accepted_logs n dss x : compile ops n (map (fun ds => Some (ds, false)) dss) = Ok (Some x) -> exists prs pfs, of_compile D parse_float deq dlt dle n dss = Ok (prs, pfs).
Proof. intros H. destruct (compile_goes ops (o_exists D) (o_compare D parse_float deq dlt dle) (o_foldany D parse_float deq dlt dle) n dss x H) as ([prs pfs] & E). eauto. Qed.

(** ** Where evaluation yields a Boolean, it yields the truth value *)
Lemma f2_in {A B} (P : A -> B -> Prop) l l' : Forall2 P l l' -> forall a, In a l -> exists b, In b l' /\ P a b.
Proof. induction 1 as [|x y l l' H F IH]; intros a []; [subst; exists y; split; [now left|assumption]|]. destruct (IH a H0) as (b & ? & ?). exists b. split; [now right|assumption]. Qed.
Definition has_value (od : occurrence * ruledecl) : Prop := forall r, exists v, ev (oc_macros (fst od)) (oc_lists (fst od)) (atomic_of r) (rd_cond (snd od)) v.
Definition has_value_f (od : occurrence * filterdecl) : Prop := forall r, exists v, ev (oc_macros (fst od)) (oc_lists (fst od)) (atomic_of r) (fd_cond (snd od)) v.
Lemma rule_says od r b : has_value od -> rule_run od r (Ok b) -> (b = true <-> rule_fires od r).
Proof.
  intros V H. destruct od as [o d]. inversion H as [X E|ou X Y E]; subst; cbn [fst snd] in *; unfold o_rule_fires.
  - split; [discriminate|]. intros [N _]. destruct (N X).
  - destruct (V r) as (v & Hv). cbn [fst snd] in Hv. rewrite (expr_agrees D parse_float deq dlt dle _ _ r _ _ _ Y Hv) in Hv. split; [intros ->; split; assumption|].
    intros [_ Ht]. exact (eq_sym (expr_agrees D parse_float deq dlt dle _ _ r _ _ _ Y Ht)).
Qed.
Lemma filter_says od r b : has_value_f od -> filter_run od r (Ok b) -> (b = true <-> filter_fires od r).
Proof.
  intros V H. destruct od as [o d]. inversion H as [X E|ou X Y E]; subst; cbn [fst snd] in *; unfold o_filter_fires.
  - split; [discriminate|]. intros [N _]. destruct (N X).
  - destruct (V r) as (v & Hv). cbn [fst snd] in Hv. rewrite (expr_agrees D parse_float deq dlt dle _ _ r _ _ _ Y Hv) in Hv. split; [intros ->; split; assumption|].
    intros [_ Ht]. exact (eq_sym (expr_agrees D parse_float deq dlt dle _ _ r _ _ _ Y Ht)).
Qed.
Lemma turns_in_turn {A} (run : A -> logs -> res bool -> Prop) (fires : A -> logs -> Prop) (tells : A -> logs -> logs -> Prop) l r fired o r' :
  (forall a x b, In a l -> run a x (Ok b) -> (b = true <-> fires a x)) -> turns D run tells l r fired o -> o = Ok r' -> in_turn D fires tells l r fired r'.
Proof.
  intros H T. revert H. induction T as [r|a l r r1 fired o Ha Ht T IH|a l r fired o Ha T IH|a l r Ha]; intros H E.
  - injection E as ->. constructor.
  - econstructor; [apply (H a r true (or_introl eq_refl) Ha); reflexivity|exact Ht|apply IH; [intros; apply H; [now right|assumption]|exact E]].
  - apply it_skip; [|apply IH; [intros; apply H; [now right|assumption]|exact E]]. intros F. apply (H a r false (or_introl eq_refl) Ha) in F. discriminate.
  - discriminate.
Qed.
Lemma outcome_says {F A} (drops : list F) (frun : F -> logs -> res bool -> Prop) (ffires : F -> logs -> Prop) (rules : list A) (run : A -> logs -> res bool -> Prop) (fires : A -> logs -> Prop) tells m r os :
  (forall f x b, In f drops -> frun f x (Ok b) -> (b = true <-> ffires f x)) -> (forall a x b, In a rules -> run a x (Ok b) -> (b = true <-> fires a x)) ->
  p_outcome D drops frun rules run tells m r (Ok os) -> o_outcome D (exists f, In f drops /\ ffires f r) rules fires tells m r os.
Proof.
  intros Hf Hr H. assert (N : any_run (fun f o => frun f r o) drops (Ok false) -> ~ exists f, In f drops /\ ffires f r).
  { intros A1 X. pose proof (proj2 (any_says _ (fun f => ffires f r) drops false A1 (fun f b Hi => Hf f r b Hi)) X). discriminate. }
  inversion H as [|A1|fired A1 T|r' A1 T Em|fired r' A1 T Em]; subst; unfold o_outcome.
  - left. split; [|reflexivity]. exact (proj1 (any_says _ (fun f => ffires f r) drops true A1 (fun f b Hi => Hf f r b Hi)) eq_refl).
  - right. split; [now apply N|]. exists [], r'. split; [exact (turns_in_turn run fires tells _ _ _ _ _ Hr T eq_refl)|auto].
  - right. split; [now apply N|]. exists fired, r'. split; [exact (turns_in_turn run fires tells _ _ _ _ _ Hr T eq_refl)|auto].
Qed.
Lemma falco_says n dss x m r os : files_plain (map (fun ds => Some (ds, false)) dss) -> compile ops n (map (fun ds => Some (ds, false)) dss) = Ok (Some x) ->
  of_disposed D parse_float deq dlt dle dss m r (Ok os) -> o_disposed D parse_float deq dlt dle dss m r os.
Proof.
  intros Hp Hc H. destruct x as [rules filters]. destruct (compile_ok ops n (map (fun ds => Some (ds, false)) dss) rules filters Hp Hc) as (_ & F1 & F2).
  change (occs [] (map (fun ds => Some (ds, false)) dss)) with (declared dss) in F1, F2.
  unfold of_disposed in H. unfold o_disposed. eapply outcome_says; [| |exact H].
  - intros [o d] y b Hi. apply filter_says. intros z. destruct (f2_in _ _ _ F2 _ Hi) as (f & _ & _ & _ & Hv). eexists. exact (Hv z _ (o_models D parse_float deq dlt dle regcomp z)).
  - intros [o d] y b Hi. apply rule_says. intros z. destruct (f2_in _ _ _ F1 _ Hi) as (f & _ & _ & _ & _ & _ & _ & _ & _ & _ & Hv). eexists. exact (Hv z _ (o_models D parse_float deq dlt dle regcomp z)).
Qed.

(** ** Logs on which nothing panics *)
Section Calm.
Variable K : string -> Prop.
Section Log.
Variable r : logs.
Hypothesis Hr : l_resource D r <> None.
Hypothesis Hc : forall k v op, K k -> decides D k (log_attrs D r) v -> ~ crashes D op v.
Lemma test_calm k op x o : K k -> test_run r k op x o -> o <> Panic.
Proof. intros Hk H. inversion H as [E|v N A B|b N A B]; subst; [congruence|destruct (Hc k v op Hk A B)|discriminate]. Qed.
Lemma exists_calm k o : exists_run D r k o -> o <> Panic.
Proof. intros H. inversion H; subst; [congruence|discriminate]. Qed.
Lemma in_calm k op ys o : K k -> in_run r k op ys o -> o <> Panic.
Proof. intros Hk H. inversion H as [E|o' N A]; subst; [congruence|]. apply (any_calm _ _ _ A). intros y _ T. exact (test_calm _ _ _ _ Hk T eq_refl). Qed.
Variable macros : string -> option expr.
Variable lists : string -> option (list string).
Definition t_calm (t : term) (o : res bool) : Prop := (forall k, looks macros t k -> K k) -> o <> Panic.
Lemma disj_calm e o : any_run (all_run (fun t o => t_run macros lists r t o /\ t_calm t o)) e o -> (forall k, e_looks macros e k -> K k) -> o <> Panic.
Proof.
  intros H Hk. apply (any_calm _ _ _ H). intros c Hc' A. apply (all_calm _ _ _ A); [|reflexivity]. intros t Ht [_ T]. apply T; [|reflexivity].
  intros k Hi. apply Hk. exists c, t. auto.
Qed.
Lemma term_calm t o : t_run macros lists r t o -> t_calm t o.
Proof.
  apply (t_run_ind' D parse_float deq dlt dle macros lists r t_calm); unfold t_calm.
  - intros x e o' E H Hk. apply (disj_calm e o' H). intros k (c & t' & H1 & H2 & H3). apply Hk. exact (lk_macro macros x e c t' k E H1 H2 H3).
  - intros; discriminate.
  - intros; discriminate.
  - intros t0 _ IH Hk. apply IH. intros k Hl. apply Hk. now constructor.
  - intros a o' H _. exact (exists_calm a o' H).
  - intros l op x o' _ H Hk. apply (test_calm l (op_of op) x o'); [apply Hk; constructor|exact H].
  - intros; discriminate.
  - intros l x H Hk. apply (test_calm l OpEq x Panic); [apply Hk; constructor|exact H].
  - intros a args ys o' _ H Hk. apply (in_calm a OpEq ys o'); [apply Hk; constructor|exact H].
  - intros a args ys o' _ H Hk. apply (in_calm a OpContains ys o'); [apply Hk; constructor|exact H].
  - intros e o' H Hk. apply (disj_calm e o' H). intros k (c & t' & H1 & H2 & H3). apply Hk. exact (lk_paren macros e c t' k H1 H2 H3).
Qed.
Lemma expr_calm e o : e_run macros lists r e o -> (forall k, e_looks macros e k -> K k) -> o <> Panic.
Proof.
  intros H. apply disj_calm. unfold SpecEvalOtel.e_run in H. revert H. apply any_mono. intros c o'. apply all_mono. intros t o0 Ht. split; [exact Ht|now apply term_calm].
Qed.
End Log.
(** What the rules leave of a log. *)
Definition left_of res scopes (r : logs) : Prop := r = mkLogs D res scopes \/ exists rs ts, rs <> [] /\ r = mkLogs D res (scopes ++ [own D rs ts]).
Lemma left_calm res scopes r : ~ K "sf.processor.tags" -> calm D K (mkLogs D res scopes) -> left_of res scopes r ->
  l_resource D r <> None /\ forall k v op, K k -> decides D k (log_attrs D r) v -> ~ crashes D op v.
Proof.
  intros NT C [-> |(rs & ts & Nr & ->)]; [exact C|]. destruct (calm_own D parse_float regcomp K res scopes rs ts Nr C) as [C1 C2]. split; [exact C1|].
  intros k v op Hk. apply C2. split; [exact Hk|]. left. intros ->. exact (NT Hk).
Qed.
Lemma left_noted n ts res scopes r r1 : Forall (foreign D) scopes -> left_of res scopes r -> noted D n ts r r1 -> left_of res scopes r1.
Proof.
  intros F [-> |(rs & ts0 & Nr & ->)] N; right.
  - exists [n], ts. split; [discriminate|]. exact (noted_new D _ _ _ _ _ F N).
  - exists (rs ++ [n]), (ts0 ++ ts). split; [destruct rs; discriminate|]. exact (noted_own D _ _ _ _ _ _ _ F N).
Qed.
Lemma turns_calm {A} (run : A -> logs -> res bool -> Prop) (tells : A -> logs -> logs -> Prop) l r fired o res scopes : Forall (foreign D) scopes -> left_of res scopes r ->
  (forall a x, In a l -> left_of res scopes x -> ~ run a x Panic) -> (forall a x y, tells a x y -> exists n ts, noted D n ts x y) ->
  turns D run tells l r fired o -> o <> Panic.
Proof.
  intros F L N Ht T. revert L N. induction T as [r|a l r r1 fired o Ha Hn T IH|a l r fired o Ha T IH|a l r Ha]; intros L N.
  - discriminate.
  - destruct (Ht _ _ _ Hn) as (nm & ts & Hnn). apply IH; [exact (left_noted _ _ _ _ _ _ F L Hnn)|]. intros b x Hb. apply N. now right.
  - apply IH; [exact L|]. intros b x Hb. apply N. now right.
  - destruct (N a r (or_introl eq_refl) L Ha).
Qed.
Lemma falco_calm dss m res scopes o : ~ K "sf.processor.tags" -> policy_looks dss K ->
  Forall (foreign D) scopes -> calm D K (mkLogs D res scopes) ->
  of_disposed D parse_float deq dlt dle dss m (mkLogs D res scopes) o -> o <> Panic.
Proof.
  intros NT [HR HF] F C H.
  assert (NF : forall od x, In od (filter_occs (declared dss)) -> left_of res scopes x -> ~ filter_run od x Panic).
  { intros od x Hi L X. inversion X as [|ou X1 X2]; subst.
    destruct (left_calm _ _ _ NT C L) as [C1 C2]. exact (expr_calm x C1 C2 _ _ _ _ X2 (fun k => HF od k Hi) eq_refl). }
  assert (NR : forall od x, In od (rule_occs (declared dss)) -> left_of res scopes x -> ~ rule_run od x Panic).
  { intros od x Hi L X. inversion X as [|ou X1 X2]; subst.
    destruct (left_calm _ _ _ NT C L) as [C1 C2]. exact (expr_calm x C1 C2 _ _ _ _ X2 (fun k => HR od k Hi) eq_refl). }
  assert (L : left_of res scopes (mkLogs D res scopes)) by now left.
  unfold of_disposed in H. inversion H as [A1|A1|fired A1 T|r' A1 T Em|fired r' A1 T Em]; subst; try discriminate.
  - intros _. refine (any_calm _ _ _ A1 _ eq_refl). intros od Hi. exact (NF od _ Hi L).
  - intros _. refine (turns_calm _ _ _ _ _ _ res scopes F L NR _ T eq_refl). intros a x y (ts0 & ts & _ & _ & _ & N). eauto.
Qed.
End Calm.

(** ** Logs without a resource *)
Section Bare.
Variable r : logs.
Hypothesis Hr : l_resource D r = None.
Lemma test_bare k op x o : test_run r k op x o -> o = Panic.
Proof. inversion 1; subst; congruence. Qed.
Lemma begins_bare macros lists t : begins macros t -> forall o, t_run macros lists r t o -> o = Panic.
Proof.
  assert (E : forall t c e o, (forall o, t_run macros lists r t o -> o = Panic) -> any_run (all_run (t_run macros lists r)) ((t :: c) :: e) o -> o = Panic).
  { intros t0 c e o IH H.
    assert (G : forall o', all_run (t_run macros lists r) (t0 :: c) o' -> o' = Panic).
    { intros o' G. inversion G; subst; try reflexivity; match goal with X : t_run _ _ _ t0 _ |- _ => apply IH in X; discriminate X end. }
    inversion H; subst; try reflexivity; match goal with X : all_run _ (t0 :: c) _ |- _ => apply G in X; discriminate X end. }
  induction 1 as [a|l op x|a args|a args|t B IH|t c e B IH|x t c e Em B IH]; intros o H; inversion H; subst; auto.
  - match goal with X : exists_run _ _ _ _ |- _ => inversion X; subst end; congruence.
  - eapply test_bare; eassumption.
  - match goal with X : test_run _ _ _ _ _ |- _ => apply test_bare in X end. congruence.
  - match goal with X : in_run _ _ _ _ _ |- _ => inversion X; subst end; congruence.
  - match goal with X : in_run _ _ _ _ _ |- _ => inversion X; subst end; congruence.
  - match goal with X : t_run _ _ _ t _ |- _ => apply IH in X; discriminate X end.
  - eapply E; eauto.
  - assert (e0 = (t :: c) :: e) by congruence. subst. eapply E; eauto.
  - congruence.
Qed.
Lemma starts_bare macros lists e o : starts macros e -> e_run macros lists r e o -> o = Panic.
Proof.
  intros (t & c & e' & -> & B) H.
  assert (G : forall o', all_run (t_run macros lists r) (t :: c) o' -> o' = Panic).
  { intros o' G. inversion G; subst; try reflexivity; match goal with X : t_run _ _ _ t _ |- _ => apply (begins_bare _ _ _ B) in X; discriminate X end. }
  unfold SpecEvalOtel.e_run in H. inversion H; subst; try reflexivity; match goal with X : all_run _ (t :: c) _ |- _ => apply G in X; discriminate X end.
Qed.
Lemma any_bare {A} (run : A -> res bool -> Prop) l o : any_run run l o -> (forall a b, In a l -> run a b -> b = Ok false \/ b = Panic) -> o = Ok false \/ o = Panic.
Proof.
  induction 1 as [|a l H|a l H|a l o H _ IH]; intros N; auto.
  - destruct (N a (Ok true) (or_introl eq_refl) H) as [X|X]; discriminate X.
  - apply IH. intros b x Hb. apply N. now right.
Qed.
Lemma any_some {A} (run : A -> res bool -> Prop) l o a : any_run run l o -> In a l -> (forall b, run a b -> b = Panic) -> (forall a b, In a l -> run a b -> b = Ok false \/ b = Panic) -> o = Panic.
Proof.
  induction 1 as [|x l H|x l H|x l o H _ IH]; intros Hi Ha N; auto.
  - destruct Hi.
  - destruct (N x (Ok true) (or_introl eq_refl) H) as [X|X]; discriminate X.
  - destruct Hi as [->|Hi]; [discriminate (Ha _ H)|]. apply IH; auto. intros b y Hb. apply N. now right.
Qed.
Lemma turns_bare {A} (run : A -> logs -> res bool -> Prop) (tells : A -> logs -> logs -> Prop) l fired o : turns D run tells l r fired o ->
  (forall a b, In a l -> run a r b -> b = Ok false \/ b = Panic) -> (exists a, In a l /\ forall b, run a r b -> b = Panic) -> o = Panic.
Proof.
  intros T. remember r as r0 eqn:E. revert E. induction T as [r0|a l r0 r1 fired o Ha Hn T IH|a l r0 fired o Ha T IH|a l r0 Ha]; intros E N (x & Hx & Px).
  - destruct Hx.
  - destruct (N a (Ok true) (or_introl eq_refl) Ha) as [X|X]; discriminate X.
  - destruct Hx as [->|Hx]; [discriminate (Px _ Ha)|]. apply IH; auto; [intros b y Hb; apply N; now right|]. exists x. auto.
  - reflexivity.
Qed.
Lemma falco_bare dss m o :
  (forall od, In od (rule_occs (declared dss)) -> starts (oc_macros (fst od)) (rd_cond (snd od))) ->
  (forall od, In od (filter_occs (declared dss)) -> starts (oc_macros (fst od)) (fd_cond (snd od))) ->
  (exists od, In od (rule_occs (declared dss)) /\ ~ rule_off (snd od)) \/ (exists od, In od (filter_occs (declared dss)) /\ ~ filter_off (snd od)) ->
  of_disposed D parse_float deq dlt dle dss m r o -> o = Panic.
Proof.
  intros HR HF On H.
  assert (R1 : forall od b, In od (rule_occs (declared dss)) -> rule_run od r b -> b = Ok false \/ b = Panic).
  { intros od b Hi X. inversion X as [|ou X1 X2]; subst; [now left|right]. exact (starts_bare _ _ _ _ (HR od Hi) X2). }
  assert (R2 : forall od, In od (rule_occs (declared dss)) -> ~ rule_off (snd od) -> forall b, rule_run od r b -> b = Panic).
  { intros od Hi No b X. inversion X as [Y|ou X1 X2]; subst; [destruct (No Y)|]. exact (starts_bare _ _ _ _ (HR od Hi) X2). }
  assert (F1 : forall od b, In od (filter_occs (declared dss)) -> filter_run od r b -> b = Ok false \/ b = Panic).
  { intros od b Hi X. inversion X as [|ou X1 X2]; subst; [now left|right]. exact (starts_bare _ _ _ _ (HF od Hi) X2). }
  assert (F2 : forall od, In od (filter_occs (declared dss)) -> ~ filter_off (snd od) -> forall b, filter_run od r b -> b = Panic).
  { intros od Hi No b X. inversion X as [Y|ou X1 X2]; subst; [destruct (No Y)|]. exact (starts_bare _ _ _ _ (HF od Hi) X2). }
  assert (G : any_run (fun f o => filter_run f r o) (filter_occs (declared dss)) (Ok false) -> exists od, In od (rule_occs (declared dss)) /\ ~ rule_off (snd od)).
  { intros A1. destruct On as [On|(od & Hi & No)]; [exact On|]. discriminate (any_some _ _ _ od A1 Hi (F2 od Hi No) F1). }
  unfold of_disposed in H. inversion H as [A1|A1|fired A1 T|r' A1 T Em|fired r' A1 T Em]; subst; try reflexivity.
  - destruct (any_bare _ _ _ A1 F1) as [X|X]; discriminate X.
  - destruct (G A1) as (od & Hi & No). discriminate (turns_bare _ _ _ _ _ T R1 (ex_intro _ od (conj Hi (R2 od Hi No)))).
  - destruct (G A1) as (od & Hi & No). discriminate (turns_bare _ _ _ _ _ T R1 (ex_intro _ od (conj Hi (R2 od Hi No)))).
Qed.
End Bare.
End O.
