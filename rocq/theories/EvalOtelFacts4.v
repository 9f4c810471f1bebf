(** * EvalOtelFacts4: Sigma policies on logs, panics included. *)
From Coq Require Import Lia Permutation.
From Verif Require Import GoBase GoFacts Predicates PolicyFacts SpecStrings FalcoModel SpecFalco FalcoFacts FalcoFacts2 FalcoFacts3 SigmaModel SpecSigma SigmaFacts
  EngineModel SpecEngine EngineFacts EngineFacts2 OtelModel SpecOtel OtelFacts OtelEngine PoolModel SpecPool PoolFacts4 InitModel SpecInit SpecOtelEngine OtelEngineFacts EvalModel SpecEval EvalFacts
  EvalOtel SpecEvalOtel EvalOtelFacts EvalOtelFacts2 EvalOtelFacts3.

(** ** Conditions whose tests do not panic *)
Section Quiet.
Variable mappings : gomap (list string).
Variable pmatch : string -> string -> bool.
Variable tst : string -> string -> operator -> res bool.
Variable searches : gomap search.
Lemma all_quiet {A} (l : list A) o : all_run (fun _ o => o <> Panic) l o -> o <> Panic.
Proof. intros H. apply (all_calm _ _ _ H). intros a _ N. now apply N. Qed.
Lemma any_quiet {A} (l : list A) o : any_run (fun _ o => o <> Panic) l o -> o <> Panic.
Proof. intros H. apply (any_calm _ _ _ H). intros a _ N. now apply N. Qed.
Definition search_quiet (s : search) : Prop := forall em fm t x op, In em (se_matchers s) -> In fm em -> target mappings (fm_field fm) t -> tst t x op <> Panic.
Lemma value_quiet fm v o : (forall t x op, target mappings (fm_field fm) t -> tst t x op <> Panic) -> value_run mappings tst (fm_mods fm) (fm_field fm) v o -> o <> Panic.
Proof. intros H (t & l & Ht & _ & A). apply (all_calm _ _ _ A). intros op _. now apply H. Qed.
Lemma fm_quiet fm o : (forall t x op, target mappings (fm_field fm) t -> tst t x op <> Panic) -> fm_run mappings tst fm o -> o <> Panic.
Proof.
  intros H G. assert (V : forall v o, fm_value_run mappings tst fm v o -> o <> Panic).
  { intros v o' [[_ A]|(m & l & _ & _ & _ & A)]; [exact (value_quiet fm v o' H A)|]. apply (any_calm _ _ _ A). intros w _ X. exact (value_quiet fm w Panic H X eq_refl). }
  destruct G as [[_ A]|[_ A]]; [apply (all_calm _ _ _ A)|apply (any_calm _ _ _ A)]; intros v _ X; exact (V v Panic X eq_refl).
Qed.
Lemma search_quiet_ok s o : search_quiet s -> search_run mappings tst s o -> o <> Panic.
Proof.
  intros H [[_ ->]|[_ A]]; [discriminate|]. apply (all_calm _ _ _ A). intros fm Hi X. apply in_concat in Hi as (em & H1 & H2).
  refine (fm_quiet fm Panic _ X eq_refl). intros t x op. exact (H em fm t x op H1 H2).
Qed.
Hypothesis HS : forall n s, In (n, s) searches -> search_quiet s.
Lemma mget_some n s : mget n searches = Some s -> In (n, s) searches.
Proof. intros H. clear HS. induction searches as [|[k x] l IH]; cbn [mget] in H; [discriminate|]. destruct (seqb n k) eqn:E; [|right; auto]. injection H as ->. apply seqb_eq in E. subst. now left. Qed.
Lemma enum_quiet l : Permutation l searches -> forall ns o, In ns l -> search_run mappings tst (snd ns) o -> o <> Panic.
Proof. intros P [n s] o Hi. apply search_quiet_ok. apply (HS n). exact (Permutation_in _ P Hi). Qed.
Fixpoint cond_quiet e o (H : cond_run mappings pmatch tst searches e o) {struct H} : o <> Panic.
Proof.
  destruct H as [n s o E A|n E|l o A|l o A|e b A|e A|l o P A|p l o P A|l o P A|p l o P A|].
  - exact (search_quiet_ok s o (HS n s (mget_some n s E)) A).
  - discriminate.
  - exact (all_quiet l o (all_mono _ _ (fun e o k => cond_quiet e o k) l o A)).
  - exact (any_quiet l o (any_mono _ _ (fun e o k => cond_quiet e o k) l o A)).
  - discriminate.
  - exact (cond_quiet e Panic A).
  - apply (any_calm _ _ _ A). intros ns Hi X. exact (enum_quiet l P ns Panic Hi X eq_refl).
  - apply (any_calm _ _ _ A). intros ns Hi X. apply filter_In in Hi as [Hi _]. exact (enum_quiet l P ns Panic Hi X eq_refl).
  - apply (all_calm _ _ _ A). intros ns Hi X. exact (enum_quiet l P ns Panic Hi X eq_refl).
  - apply (all_calm _ _ _ A). intros ns Hi X. apply filter_In in Hi as [Hi _]. exact (enum_quiet l P ns Panic Hi X eq_refl).
  - discriminate.
Qed.
End Quiet.

(** ** The Boolean compiler and this one *)
Section Both.
Context {R : Type}.
Variable ops : operations R.
Variable test : string -> string -> operator -> pcrit R.
Variable mappings : gomap (list string).
Variable pmatch : string -> string -> bool.
Variable ord : srule -> list nat -> list (string * search).
Variable Rel : criterion R -> pcrit R -> Prop.
Hypothesis Rt : Rel c_true p_true.
Hypothesis Rf : Rel c_false p_false.
Hypothesis Rand : forall c d c' d', Rel c c' -> Rel d d' -> Rel (c_and c d) (p_and c' d').
Hypothesis Ror : forall c d c' d', Rel c c' -> Rel d d' -> Rel (c_or c d) (p_or c' d').
Hypothesis Rnot : forall c c', Rel c c' -> Rel (c_not c) (p_not c').
Hypothesis Rtest : forall l r op c, op_compare ops l r op = Ok (c, false) -> Rel c (test l r op).
Definition akin (ru : rule R) (pr : prule R) : Prop := Rel (r_cond ru) (pr_cond pr) /\ r_name ru = r_name (pr_rule pr) /\ r_tags ru = r_tags (pr_rule pr) /\ r_enabled ru = r_enabled (pr_rule pr).
Lemma both_agree fs rs : s_compile ops mappings pmatch ord fs = Ok (Some rs) ->
  exists prs, pc_compile test mappings pmatch ord fs = Ok (Some prs) /\ Forall2 akin rs prs.
Proof.
  unfold s_compile, pc_compile. destruct (read_rules fs) as [srs|]; [|discriminate]. intros H.
  apply rbind_ok in H as (rss & Hr & H). injection H as <-.
  assert (K : exists prss, rmap (pc_srule test mappings pmatch ord) srs = Ok prss /\
     Forall2 akin (concat rss) (concat prss)).
  { revert rss Hr. induction srs as [|r srs IH]; intros rss Hr.
    - injection Hr as <-. exists []. split; [reflexivity|constructor].
    - apply rbind_ok in Hr as (rs & H1 & Hr). apply rbind_ok in Hr as (rss' & H2 & Hr). injection Hr as <-.
      destruct (IH _ H2) as (prss & E2 & F2).
      assert (K1 : exists ps, pc_srule test mappings pmatch ord r = Ok ps /\ Forall2 akin rs ps).
      { unfold compile_srule, pc_srule in *. revert rs H1. generalize 0. induction (sr_conds r) as [|e es IHe]; intros i rs H1.
        - injection H1 as <-. exists []. split; [reflexivity|constructor].
        - apply rbind_ok in H1 as (ru & Hc & H1). apply rbind_ok in H1 as (rs' & Hs & H1). injection H1 as <-.
          apply rbind_ok in Hc as (c & Hc & Hu). injection Hu as <-.
          destruct (@r_sexpr _ ops test mappings pmatch Rel Rt Rf Rand Ror Rnot Rtest _ _ _ _ _ Hc) as (d & Hd & K).
          destruct (IHe _ _ Hs) as (ps & Hps & F). cbn [imap]. rewrite Hd. cbn [rbind]. rewrite Hps.
          eexists. split; [reflexivity|]. constructor; [split; [exact K|auto]|assumption]. }
      destruct K1 as (ps & E1 & F1). exists (ps :: prss). cbn [rmap]. rewrite E1. cbn [rbind]. rewrite E2.
      split; [reflexivity|]. cbn [concat]. apply Forall2_app; assumption. }
  destruct K as (prss & -> & F). eexists. split; [reflexivity|assumption].
Qed.
End Both.

Section O.
Variable D : Type.
Variable parse_float : string -> option D.
Variables deq dlt dle : D -> D -> bool.
Variable regcomp : string -> option (string -> string).
Notation logs := (logs D).
Notation ops := (o_ops D parse_float deq dlt dle regcomp).
Notation t_c := (o_compare D parse_float deq dlt dle).
Notation test_run := (test_run D parse_float deq dlt dle).
Notation s_run := (s_run D parse_float deq dlt dle).
Notation satomic_of := (o_satomic D parse_float deq dlt dle regcomp).
Variable enum : logs -> rule logs -> list string -> list string.
Hypothesis Henum : forall r ru l, Permutation (enum r ru l) l.
Variable pmatch : string -> string -> bool.
Variable ord : srule -> list nat -> list (string * search).
Hypothesis Hord : forall r p, Permutation (ord r p) (sr_searches r).
Variable maps : gomap (list string).

Lemma sigma_agree fs rs : s_compile ops maps pmatch ord fs = Ok (Some rs) ->
  exists prs, os_compile D parse_float deq dlt dle maps pmatch ord fs = Ok (Some prs) /\
    Forall2 (akin (fun c d => forall r b, d r = Ok b -> c r = b)) rs prs.
Proof.
  intros H. apply (both_agree ops t_c maps pmatch ord (fun c d => forall r b, d r = Ok b -> c r = b)) with (rs := rs); auto;
    unfold p_true, p_false, p_and, p_or, p_not, c_true, c_false, c_and, c_or, c_not, c_eval.
  - intros r b [= <-]. reflexivity.
  - intros r b [= <-]. reflexivity.
  - intros c d c' d' H1 H2 r b E. apply rbind_ok in E as (x & Ex & E). rewrite (H1 r x Ex). destruct x; [exact (H2 r b E)|now injection E].
  - intros c d c' d' H1 H2 r b E. apply rbind_ok in E as (x & Ex & E). rewrite (H1 r x Ex). destruct x; [now injection E|exact (H2 r b E)].
  - intros c c' H1 r b E. apply rbind_ok in E as (x & Ex & E). rewrite (H1 r x Ex). now injection E.
  - intros l r op c Hc x b E. injection Hc as <-. unfold o_crit. rewrite E. reflexivity.
Qed.
(** What the evaluation yields is the truth value of C17. *)
(** What [o_add] notes of a Sigma rule. *)
Lemma s_told_add re (ru : rule logs) x : r_name ru = sr_id (fst re) -> r_tags ru = map TagStr (sr_tags (fst re)) -> regular D x -> s_told D re x (o_add D enum x ru).
Proof.
  intros Hn Ht Rx. destruct (add_noted D parse_float enum Henum x ru Rx) as (ts & N & _ & Pm). exists ts. rewrite <- Hn.
  split; [eapply Permutation_NoDup; [symmetry; exact Pm|apply tag_set_nodup]|]. split; [|exact N]. intros t. split.
  - intros Hi. apply (Permutation_in _ Pm), tag_set_spec in Hi as (r0 & tg & [<-|[]] & H1 & H2). cbn [snd] in H1. rewrite Ht in H1.
    apply in_map_iff in H1 as (s & <- & Hs). destruct H2 as [<-|[]]. exact Hs.
  - intros Hi. apply (Permutation_in _ (Permutation_sym Pm)), tag_set_spec. exists (r_name ru, r_tags ru), (TagStr t). cbn [snd]. rewrite Ht.
    split; [now left|]. split; [now apply in_map|now left].
Qed.
Definition s_fires (re : srule * sexpr) (r : logs) : Prop := cond_holds maps pmatch (satomic_of r) (sr_searches (fst re)) (snd re).
Lemma sigma_says fs rs : s_compile ops maps pmatch ord fs = Ok (Some rs) ->
  exists prs srs, os_compile D parse_float deq dlt dle maps pmatch ord fs = Ok (Some prs) /\ readable fs srs /\
    forall ah m r, harmless D ah -> regular D r ->
      let (es, o) := op_work D enum ah m [] prs r in
      os_disposed D parse_float deq dlt dle pmatch maps srs m r (passed es o) /\
      forall os, passed es o = Ok os -> so_disposed D parse_float deq dlt dle regcomp pmatch maps srs m r os.
Proof.
  intros H. destruct (sigma_agree fs rs H) as (prs & Hp & F). exists prs.
  destruct (sigma_worker D parse_float deq dlt dle enum Henum pmatch ord Hord maps fs prs Hp) as (srs & Hr & W). exists srs.
  split; [exact Hp|]. split; [exact Hr|]. intros ah m r Hah Hreg. specialize (W ah m r Hah Hreg).
  destruct (s_compile_spec ops maps pmatch ord Hord fs rs H) as (srs' & Hr' & F').
  assert (srs' = srs) by (apply read_rules_readable in Hr; apply read_rules_readable in Hr'; congruence). subst srs'.
  set (Q := fun (re : srule * sexpr) (pr : prule logs) => r_name (pr_rule pr) = sr_id (fst re) /\ r_tags (pr_rule pr) = map TagStr (sr_tags (fst re)) /\
    r_enabled (pr_rule pr) = true /\ forall x b, pr_cond pr x = Ok b -> (b = true <-> s_fires re x)).
  assert (G : Forall2 Q (s_conditions srs) prs).
  { unfold s_conditions. revert F'. generalize (concat (map (fun r => map (fun e => (r, e)) (sr_conds r)) srs)). clear - F.
    induction F as [|ru pr rs prs (Hc & Hn & Ht & He) F IH]; intros l F'; inversion F' as [|[q e] y l' ys Hs F'']; subst; constructor; [|now apply IH].
    destruct Hs as (S1 & _ & _ & S2 & _ & _ & S3 & S4). split; [cbn; congruence|]. split; [cbn; congruence|]. split; [congruence|].
    intros x b E. rewrite <- (Hc x b E). unfold s_fires. cbn [fst snd]. apply S4. apply o_smodels. }
  assert (Df : forall pr x, In pr prs -> decided (pr_cond pr x)).
  { clear - Hp Hord. intros pr x Hi. unfold os_compile, pc_compile in Hp. destruct (read_rules fs) as [qs|]; [|discriminate].
    apply rbind_ok in Hp as (rss & Hm & Hp). injection Hp as <-. apply in_concat in Hi as (ps & H1 & H2). apply rmap_ok in Hm.
    assert (X : exists q, pc_srule t_c maps pmatch ord q = Ok ps).
    { clear - Hm H1. induction Hm as [|q b qs rss Hq F IH]; [destruct H1|]. destruct H1 as [->|H1]; eauto. }
    destruct X as (q & Hq). unfold pc_srule in Hq. destruct (imap_in _ _ _ _ Hq pr H2) as (i & e & _ & Hb). apply rbind_ok in Hb as (c & Hc & Hb). injection Hb as <-. cbn [pr_cond].
    assert (Hd : forall l rr op, decided (t_c l rr op x)) by (intros l rr op; apply compare_run).
    exact (proj2 (sexpr_outcome _ maps pmatch x Hd (sr_searches q) (ord q) (Hord q) e _ c Hc)). }
  set (run := fun (re : srule * sexpr) (x : logs) (o : res bool) => forall b, o = Ok b -> (b = true <-> s_fires re x)).
  pose proof (fun Ho Hn Ht => work_turns D parse_float enum Henum run (s_told D) (fun re pr => Q re pr /\ In pr prs) ah Hah Ho Hn Ht ([] : list unit) (fun _ _ _ => False) (s_conditions srs) prs [] m r) as K.
  assert (G' : Forall2 (fun re pr => Q re pr /\ In pr prs) (s_conditions srs) prs).
  { clear - G. assert (X : forall l, incl prs l -> Forall2 (fun re pr => Q re pr /\ In pr l) (s_conditions srs) prs).
    { induction G as [|a b l l' Hab G IH]; intros z Hz; constructor; [split; [assumption|apply Hz; now left]|]. apply IH. intros y Hy. apply Hz. now right. }
    apply X. intros y Hy. exact Hy. }
  specialize (K ltac:(intros re pr x ((_ & _ & E & _) & _) E'; congruence)).
  specialize (K ltac:(intros re pr x ((_ & _ & _ & E) & Hi) _; split; [exact (E x)|exact (Df pr x Hi)])).
  specialize (K ltac:(intros re pr x ((E1 & E2 & _) & _) Hx; apply (s_told_add re (pr_rule pr) x E1 E2 Hx))).
  specialize (K G' Hreg (any_nil _) (or_intror (ex_intro _ false eq_refl))).
  destruct (op_work D enum ah m [] prs r) as [es o] eqn:E. split; [exact W|]. intros os Eo. rewrite Eo in K.
  assert (Z := outcome_says D ([] : list unit) (fun _ _ _ => False) (fun _ _ => False) (s_conditions srs) run s_fires (s_told D) m r os (fun f x b (X : In f []) => match X with end)
     ltac:(intros re x b _ X; exact (X b eq_refl)) K).
  unfold so_disposed. destruct Z as [[(f & [] & _) _]|[_ Z]]. right. split; [tauto|]. exact Z.
Qed.
(** Nothing panics on a calm log if the mapped fields are calm. *)
Lemma sigma_calm K srs m res scopes o : ~ K "sf.processor.tags" ->
  (forall r n s em fm t, In r srs -> In (n, s) (sr_searches r) -> In em (se_matchers s) -> In fm em -> target maps (fm_field fm) t -> K t) ->
  Forall (foreign D) scopes -> calm D K (mkLogs D res scopes) ->
  os_disposed D parse_float deq dlt dle pmatch maps srs m (mkLogs D res scopes) o -> o <> Panic.
Proof.
  intros NT HK F C H.
  assert (NR : forall re x, In re (s_conditions srs) -> left_of D res scopes x -> ~ s_run pmatch maps re x Panic).
  { intros [q e] x Hi L (tst & Ht & Hc). destruct (left_calm D parse_float regcomp K _ _ _ NT C L) as [C1 C2]. cbn [fst snd] in Hc.
    refine (cond_quiet maps pmatch tst (sr_searches q) _ e Panic Hc eq_refl). intros n s Hn em fm t y op H1 H2 H3 X.
    unfold s_conditions in Hi. apply in_concat in Hi as (l & Hl & Hi). apply in_map_iff in Hl as (q' & <- & Hq). apply in_map_iff in Hi as (e' & E & _). injection E as -> ->.
    pose proof (Ht t y op) as T. rewrite X in T. exact (test_calm D parse_float deq dlt dle K x C1 C2 t op y Panic (HK q n s em fm t Hq Hn H1 H2 H3) T eq_refl). }
  assert (L : left_of D res scopes (mkLogs D res scopes)) by now left.
  unfold os_disposed in H. inversion H as [A1|A1|fired A1 T|r' A1 T Em|fired r' A1 T Em]; subst; try discriminate.
  - inversion A1.
  - intros _. refine (turns_calm D _ _ _ _ _ _ res scopes F L NR _ T eq_refl). intros a x y (ts & _ & _ & N). eauto.
Qed.
End O.

(** ** Acceptance *)
Section A.
Variable D : Type.
Variable parse_float : string -> option D.
Variables deq dlt dle : D -> D -> bool.
Variable regcomp : string -> option (string -> string).
Notation ops := (o_ops D parse_float deq dlt dle regcomp).
Lemma o_ops_total : ops_total ops (fun _ => True).
Proof. repeat split; intros; eexists; reflexivity. Qed.
Lemma falco_accepted dss : let fs := map (fun ds => Some (ds, false)) dss in
  (forall o, In o (occs [] fs) -> acyclic (oc_macros o) expr_refs /\ acyclic (oc_lists o) (fun l => l)) ->
  exists n x, forall m, n <= m -> compile ops m fs = Ok (Some x) /\ exists prs pfs, of_compile D parse_float deq dlt dle m dss = Ok (prs, pfs).
Proof.
  intros fs Ha. destruct (compile_total ops (fun _ => True) o_ops_total fs) as (n & out & H); [intros f d a _ _ _; exact I|exact Ha|].
  assert (G : Forall file_good fs).
  { apply Forall_forall. intros f Hf. apply in_map_iff in Hf as (ds & <- & _). exists ds. reflexivity. }
  destruct out as [x|].
  - exists n, x. intros m Hm. split; [exact (H m Hm)|]. exact (accepted_logs D parse_float deq dlt dle regcomp m dss x (H m Hm)).
  - exfalso. specialize (H n (le_n n)). exact (proj1 (compile_files_err ops _ _ _ _ H) eq_refl G).
Qed.
Lemma sigma_accepted pmatch ord (Hord : forall r p, Permutation (ord r p) (sr_searches r)) maps fs srs :
  readable fs srs -> (forall r n s, In r srs -> In (n, s) (sr_searches r) -> search_compiles maps s) ->
  exists rs prs, s_compile ops maps pmatch ord fs = Ok (Some rs) /\ os_compile D parse_float deq dlt dle maps pmatch ord fs = Ok (Some prs).
Proof.
  intros Hr Hs.
  assert (S : exists rs, s_compile ops maps pmatch ord fs = Ok (Some rs)).
  { unfold s_compile. apply read_rules_readable in Hr. rewrite Hr.
    assert (K : exists rss, rmap (compile_srule ops maps pmatch ord) srs = Ok rss).
    { apply rmap_tot. intros r Hi. unfold compile_srule. generalize 0. induction (sr_conds r) as [|e es IH]; intros i; cbn [imap]; [eauto|].
      assert (Ho : forall l r op, True -> True -> exists c, op_compare ops l r op = Ok (c, false)) by (intros; eexists; reflexivity).
      assert (Hu : forall n s, In (n, s) (sr_searches r) -> search_usable maps (fun _ => True) s).
      { intros n s Hn em fm He Hf. destruct (Hs r n s Hi Hn em fm He Hf). repeat split; auto; apply H; assumption. }
      destruct (@visit_sexpr_total _ ops maps pmatch (fun _ => True) Ho (sr_searches r) (ord r) (Hord r) Hu e [i]) as (c & ->).
      cbn [rbind]. destruct (IH (S i)) as (cs & ->). cbn [rbind]. eauto. }
    destruct K as (rss & ->). cbn [rbind]. eauto. }
  destruct S as (rs & E). exists rs. destruct (sigma_agree D parse_float deq dlt dle regcomp pmatch ord maps fs rs E) as (prs & Ep & _).
  exists prs. split; [exact E|exact Ep].
Qed.
End A.
