(** * GrammarFacts6: words that no condition contains; tags. *)
From Verif Require Import GoBase GoFacts FalcoModel SpecFalco GrammarModel GrammarParser GrammarFacts SpecGrammar
  LexerModel LexerFacts SpecLexer LexerFacts2 LexerFacts3 LexerFacts4 LexerFacts5.
From Coq Require Import Lia.
Local Open Scope string_scope.

Definition in_cond (k : kind) : bool :=
  is_atom k || is_op k ||
  match k with KNot | KAnd | KOr | KLparen | KRparen | KLbrack | KRbrack | KListsep => true | _ => false end.
Ltac kk := repeat (first [apply Forall_nil | apply Forall_cons | apply Forall_app; split]);
  try assumption; try (match goal with H : tk ?t = _ |- in_cond (tk ?t) = true => rewrite H; reflexivity end);
  try (match goal with H : is_atom (tk ?t) = true |- in_cond (tk ?t) = true => unfold in_cond; rewrite H; reflexivity end); eauto.
Notation CK := (Forall (fun t => in_cond (tk t) = true)).
Lemma ck_atoms ts l : g_atoms ts l -> CK ts. Proof. induction 1; kk. Qed.
Lemma ck_items ts l : g_items ts l -> CK ts. Proof. destruct 1; kk; eauto using ck_atoms. Qed.
Lemma ck_arg ts l : g_arg ts l -> CK ts. Proof. destruct 1; kk; eauto using ck_items. Qed.
Lemma ck_args ts l : g_args ts l -> CK ts. Proof. induction 1; kk; eauto using ck_arg. Qed.
Lemma ck_expr :
  (forall ts t, g_term ts t -> CK ts) /\ (forall ts l, g_and ts l -> CK ts) /\ (forall ts e, g_expr ts e -> CK ts).
Proof.
  apply g_mut; intros; kk; eauto using ck_args.
  unfold in_cond, is_op. match goal with H : binop_of (tk ?o) = Some _ |- _ => rewrite H end.
  destruct (tk o); reflexivity || now rewrite orb_true_r.
Qed.
Definition not_in_cond : list string :=
  ["rule"; "filter"; "drop"; "macro"; "list"; "name"; "items"; "condition"; "desc"; "actions"; "output"; "priority"; "tags";
   "prefilter"; "enabled"; "warn_evttypes"; "skip-if-unknown-filter"; "append"; "required_engine_version"; "-"].
Lemma not_in_cond_kind w : In w not_in_cond -> exists k, word_of k = Some w /\ in_cond k = false.
Proof.
  intros H. repeat (destruct H as [<-|H]; [first
    [ now exists KRule | now exists KFilter | now exists KDrop | now exists KMacro | now exists KList | now exists KName
    | now exists KItems | now exists KCond | now exists KDesc | now exists KActions | now exists KOutput | now exists KPriority
    | now exists KTags | now exists KPrefilter | now exists KEnabled | now exists KWarn | now exists KSkip | now exists KAppend
    | now exists KReq | now exists KDecl ] |]). destruct H.
Qed.
Lemma cond_words s e ts t : cond_reads s e -> lexes "" s ts -> In t ts -> ~ severity_word (tx t) /\ ~ In (tx t) not_in_cond.
Proof.
  intros (ts' & Hl' & He) Hl Ht. rewrite (lexes_fun _ _ _ _ Hl' Hl) in He. clear Hl' ts'.
  pose proof (proj2 (proj2 ck_expr) _ _ He) as Hk. rewrite Forall_forall in Hk. specialize (Hk _ Ht).
  pose proof (lexes_tokens _ _ _ Hl) as Hf. rewrite Forall_forall in Hf. destruct (Hf _ Ht) as (H1 & _ & _). split.
  - intros Hs. apply severity_first in Hs. rewrite (first_rule_fun _ _ _ _ H1 Hs) in Hk. discriminate.
  - intros Hn. destruct (not_in_cond_kind _ Hn) as (k & Hw & Hc).
    rewrite (proj2 (first_rule_spelled _ _ H1 k _ Hw) eq_refl) in Hk. congruence.
Qed.

(** ** A minus sign is a token of its own *)
Lemma minus_rules : forallb (fun kr => match fst kr with KDecl | KAny => true
  | _ => match deriv "-" (snd kr) with RNone => true | _ => false end end) rules = true.
Proof. vm_compute. reflexivity. Qed.
Lemma minus_token s : token_at (String "-" s) 1 KDecl.
Proof.
  split; [unfold slen; cbn; lia|]. split.
  - cbn [stake]. apply classify_spec. destruct s; vm_compute; reflexivity.
  - intros m k r Hm Hi Hmat. destruct m as [|m]; [lia|]. cbn [stake] in Hmat. apply deriv_spec in Hmat.
    pose proof minus_rules as HR. rewrite forallb_forall in HR. specialize (HR _ Hi). cbn [fst snd] in HR.
    assert (Hx : exists c y, stake m s = String c y).
    { destruct m as [|m]; [lia|]. destruct s as [|c s]; [unfold slen in Hm; cbn in Hm; lia|]. cbn. eauto. }
    destruct Hx as (c & y & Ex). rewrite Ex in Hmat.
    assert (HN : forall R, matches R (String c y) -> match R with RNone => true | _ => false end = true -> False).
    { intros R HR1 HR2. destruct R; try discriminate. now apply m_none in HR1. }
    destruct k; try (exact (HN _ Hmat HR)).
    + the_rule Hi (lit "-"). apply (deriv_spec (lit "-")) in Hmat. apply lit_matches in Hmat. discriminate.
    + the_rule Hi (RCls (fun _ => true)). cbn in Hmat. apply m_eps_inv in Hmat. discriminate.
Qed.

(** ** Tags *)
Lemma id_no_char x w : id_head x = false -> id_tail x = false -> matches r_id w -> sfree ["["%char] w = true -> sfree [x] w = true.
Proof.
  intros X1 X2. unfold r_id. rewrite m_seq_inv. intros (u & v & -> & Hu & Hv). rewrite !sfree_app. intros H. apply andb_prop in H as [_ H].
  apply m_cls_inv in Hu as (c & -> & Hc). apply andb_true_intro. split.
  - apply (avoids_free _ (RCls id_head)); [now constructor|]. cbn. now rewrite X1.
  - clear c Hc. revert H. remember (RStar (RAlt (RCls id_tail) r_index)) as r eqn:Er. revert Er.
    induction Hv as [| | | | | a|a s t Hs _ Ht IHt]; intros Er HF; try discriminate; [reflexivity|].
    injection Er as ->. rewrite !sfree_app in *. apply andb_prop in HF as [H1 H2]. rewrite (IHt eq_refl H2), andb_true_r.
    apply m_alt_inv in Hs as [Hs|Hs].
    + apply (avoids_free _ (RCls id_tail)); [assumption|]. cbn. now rewrite X2.
    + exfalso. unfold r_index in Hs. apply m_seq_inv in Hs as (p & y & -> & _ & Hy).
      apply m_seq_inv in Hy as (x' & y' & -> & Hx & _). apply m_cls_inv in Hx as (c & -> & Hc).
      apply Ascii.eqb_eq in Hc as <-. rewrite !sfree_app in H1. cbn in H1. now rewrite andb_false_r in H1.
Qed.
Lemma name_free bad w : name_like w -> forallb (fun c => negb (id_head c) && negb (id_tail c)) bad = true -> sfree bad w = true.
Proof.
  intros Hn Hb. destruct w as [|c s]; [destruct Hn|]. destruct Hn as [Hc Hs].
  change (String c s) with (String c "" ++ s). rewrite sfree_app. apply andb_true_intro. split.
  - apply (avoids_free _ (RCls id_head)); [now constructor|]. cbn. rewrite forallb_forall in *. intros x Hx. specialize (Hb _ Hx).
    now apply andb_prop in Hb.
  - apply (sall_free id_tail); [assumption|]. rewrite forallb_forall in *. intros x Hx. specialize (Hb _ Hx). now apply andb_prop in Hb.
Qed.
Lemma rules_tag_split : exists post, rules = (firstn 47 rules ++ (KTag, r_tag) :: post)%list.
Proof. exists (skipn 48 rules). reflexivity. Qed.
Lemma pre_tag : forallb (fun kr => match fst kr with KDef | KId | KString => true | _ => avoids [":"%char] (snd kr) end) (firstn 47 rules) = true.
Proof. vm_compute. reflexivity. Qed.
Lemma tag_word x y : name_like x -> name_like y -> word KTag (x ++ ":" ++ y).
Proof.
  intros Hx Hy. assert (Hm : matches r_tag (x ++ ":" ++ y)).
  { apply m_seq. { now apply name_matches. } apply (m_seq (ch ":") r_id ":" y); [now constructor|now apply name_matches]. }
  assert (Hk : first_rule rules (x ++ ":" ++ y) KTag).
  { destruct rules_tag_split as (post & ->). apply first_rule_split; [|assumption]. intros k r Hi Hm'.
    pose proof pre_tag as HR. rewrite forallb_forall in HR. specialize (HR _ Hi). cbn [fst snd] in HR.
    assert (Hc : sfree [":"%char] (x ++ ":" ++ y) = false) by (rewrite !sfree_app; cbn; apply andb_false_r).
    assert (Ha : avoids [":"%char] r = true -> False) by (intros Ha; rewrite (avoids_free _ _ _ Hm' Ha) in Hc; discriminate).
    apply firstn_in in Hi. destruct k; try exact (Ha HR).
    - the_rule Hi r_def. apply def_start in Hm'. destruct x as [|c x]; [destruct Hx|]. destruct Hx as [Hx _]. cbn in Hm'. congruence.
    - the_rule Hi r_id. rewrite (id_no_char ":" _ eq_refl eq_refl Hm') in Hc; [discriminate|].
      rewrite !sfree_app. rewrite (name_free ["["%char] x Hx), (name_free ["["%char] y Hy); reflexivity.
    - the_rule Hi r_string. destruct x as [|c x]; [destruct Hx|]. destruct Hx as [Hx _].
      apply m_alt_inv in Hm' as [Hm'|Hm']; apply quoted_start in Hm' as (w & [= -> _]); discriminate. }
  destruct x as [|c x]; [destruct Hx|]. cbn [append]. apply plain_word; [|exact Hk].
  pose proof head_chars as HH. rewrite forallb_forall in HH. specialize (HH c (all_chars_in c)). destruct Hx as [Hc _].
  rewrite Hc in HH. cbn [negb orb] in HH. now apply negb_true_iff in HH.
Qed.
