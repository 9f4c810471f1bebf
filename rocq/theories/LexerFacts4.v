(** * LexerFacts4: layout, continued. *)
From Verif Require Import GoBase GoFacts FalcoModel GrammarModel SpecFalco SpecGrammar LexerModel LexerFacts SpecLexer LexerFacts2 LexerFacts3.
From Coq Require Import Lia.
Local Open Scope string_scope.

Definition r_ws : re := plus (RCls is_ws).
Definition r_nl : re := RSeq (opt (ch (chr 13))) (ch (chr 10)).
Definition r_comment : re := RSeq (ch "#") (RStar (RCls (fun c => negb (is_eol c)))).
Ltac the_rule Hi R :=
  match type of Hi with In (_, ?r) rules =>
    assert (r = R) as -> by (eapply rule_unique; [exact Hi|unfold rules; repeat (first [left; reflexivity|right])]) end.
Lemma rule_cases k r c s : In (k, r) rules -> matches r (String c s) -> sfree gapc (String c s) = false ->
  (k = KDef /\ c = ":"%char) \/ (k = KString /\ (c = dquote \/ c = squote)) \/ (k = KWs /\ r = r_ws) \/
  (k = KNl /\ r = r_nl) \/ (k = KComment /\ c = "#"%char /\ r = r_comment) \/ (k = KAny /\ s = "").
Proof.
  intros Hi Hm Hb. pose proof rules_avoid as Hav. rewrite forallb_forall in Hav. specialize (Hav _ Hi). cbn [fst snd] in Hav.
  apply orb_prop in Hav as [Hav|Hav].
  2:{ rewrite (avoids_free _ _ _ Hm Hav) in Hb. discriminate. }
  destruct k; try discriminate Hav.
  - the_rule Hi r_def. apply first_char in Hm as (x & s' & [= <- _] & Hx). apply Ascii.eqb_eq in Hx as <-. auto.
  - the_rule Hi r_string. right. left. split; [reflexivity|].
    apply m_alt_inv in Hm as [H|H]; apply quoted_start in H as (x & Ex); injection Ex as -> _; auto.
  - the_rule Hi r_ws. auto.
  - the_rule Hi r_nl. auto 6.
  - the_rule Hi r_comment. apply first_char in Hm as (x & s' & [= <- _] & Hx). apply Ascii.eqb_eq in Hx as <-. auto 8.
  - the_rule Hi (RCls (fun _ => true)). apply m_cls_inv in Hm as (x & [= <- ->] & _). auto 10.
Qed.
Fixpoint all_ws (s : string) : bool := match s with EmptyString => true | String c s' => is_ws c && all_ws s' end.
Lemma all_ws_app a b : all_ws (a ++ b) = all_ws a && all_ws b.
Proof. induction a as [|c a IH]; [reflexivity|]. cbn. now rewrite IH, andb_assoc. Qed.
Lemma star_ws s : matches (RStar (RCls is_ws)) s <-> all_ws s = true.
Proof.
  split.
  - remember (RStar (RCls is_ws)) as r eqn:Er. intros H. revert Er.
    induction H as [| | | | | a|a s t Hs _ Ht IHt]; intros Er; try discriminate; [reflexivity|].
    injection Er as ->. apply m_cls_inv in Hs as (c & -> & Hc). cbn. rewrite Hc. now apply IHt.
  - induction s as [|c s IH]; intros H; [constructor|]. cbn in H. apply andb_prop in H as [Hc H].
    change (String c s) with (String c "" ++ s). constructor; [now constructor|auto].
Qed.
Lemma ws_matches s : matches r_ws s <-> s <> "" /\ all_ws s = true.
Proof.
  unfold r_ws, plus. rewrite m_seq_inv. split.
  - intros (u & v & -> & Hu & Hv). apply m_cls_inv in Hu as (c & -> & Hc). apply star_ws in Hv.
    split; [discriminate|]. cbn. now rewrite Hc.
  - intros [Hne H]. destruct s as [|c s]; [congruence|]. cbn in H. apply andb_prop in H as [Hc H].
    exists (String c ""), s. split; [reflexivity|]. split; [now constructor|now apply star_ws].
Qed.
Lemma nl_ws s : matches r_nl s -> all_ws s = true.
Proof.
  unfold r_nl. rewrite m_seq_inv. intros (u & v & -> & Hu & Hv).
  apply m_cls_inv in Hv as (c & -> & Hc). apply Ascii.eqb_eq in Hc as <-.
  apply m_alt_inv in Hu as [Hu|Hu].
  - apply m_cls_inv in Hu as (c & -> & Hc). apply Ascii.eqb_eq in Hc as <-. reflexivity.
  - apply m_eps_inv in Hu as ->. reflexivity.
Qed.
Lemma star_noeol s : matches (RStar (RCls (fun c => negb (is_eol c)))) s <-> no_eol s = true.
Proof.
  split.
  - remember (RStar (RCls (fun c => negb (is_eol c)))) as r eqn:Er. intros H. revert Er.
    induction H as [| | | | | a|a s t Hs _ Ht IHt]; intros Er; try discriminate; [reflexivity|].
    injection Er as ->. apply m_cls_inv in Hs as (c & -> & Hc). cbn. rewrite Hc. now apply IHt.
  - induction s as [|c s IH]; intros H; [constructor|]. cbn in H. apply andb_prop in H as [Hc H].
    change (String c s) with (String c "" ++ s). constructor; [now constructor|auto].
Qed.
Lemma comment_matches s : matches r_comment s <-> exists x, s = String "#" x /\ no_eol x = true.
Proof.
  unfold r_comment. rewrite m_seq_inv. split.
  - intros (u & v & -> & Hu & Hv). apply m_cls_inv in Hu as (c & -> & Hc). apply Ascii.eqb_eq in Hc as <-.
    apply star_noeol in Hv. exists v. auto.
  - intros (x & -> & Hx). exists (String "#" ""), x. split; [reflexivity|]. split; [now constructor|now apply star_noeol].
Qed.
Lemma first_rule_split pre k r post w :
  (forall k' r', In (k', r') pre -> ~ matches r' w) -> matches r w -> first_rule (pre ++ (k, r) :: post)%list w k.
Proof.
  intros Hpre Hm. induction pre as [|[k' r'] pre IH]; cbn [app]; [now constructor|].
  constructor; [apply (Hpre k'); now left|]. apply IH. intros k1 r1 H1. apply (Hpre k1). now right.
Qed.
Lemma rules_ws_split : exists post, rules = (firstn 48 rules ++ (KWs, r_ws) :: post)%list.
Proof. exists (skipn 49 rules). reflexivity. Qed.
Lemma rules_comment_split : exists post, rules = (firstn 50 rules ++ (KComment, r_comment) :: post)%list.
Proof. exists (skipn 51 rules). reflexivity. Qed.
Lemma firstn_in {A} n (l : list A) x : In x (firstn n l) -> In x l.
Proof. revert l; induction n as [|n IH]; intros [|y l] H; cbn in *; auto; tauto || (destruct H; auto). Qed.
Lemma pre_ws_kinds k r : In (k, r) (firstn 48 rules) -> k <> KWs /\ k <> KNl /\ k <> KComment /\ k <> KAny.
Proof.
  cbn [firstn rules]. intros H. repeat (destruct H as [H|H]; [injection H as <- _; repeat split; discriminate|]). destruct H.
Qed.
Lemma pre_comment_kinds k r : In (k, r) (firstn 50 rules) -> k <> KComment /\ k <> KAny.
Proof.
  cbn [firstn rules]. intros H. repeat (destruct H as [H|H]; [injection H as <- _; repeat split; discriminate|]). destruct H.
Qed.
Lemma ws_gapc c : is_ws c = true -> existsb (Ascii.eqb c) gapc = true.
Proof. intros H. apply gap_char_in. unfold gap_char. now rewrite H. Qed.

Lemma ws_token run rest : run <> "" -> all_ws run = true -> starts is_ws rest = false ->
  token_at (run ++ rest) (slen run) KWs.
Proof.
  intros Hne Hws Hr. destruct run as [|c run]; [congruence|]. cbn [all_ws] in Hws. apply andb_prop in Hws as [Hc Hws].
  assert (Hq : c <> ":"%char /\ c <> dquote /\ c <> squote /\ c <> "#"%char) by (repeat split; intros ->; discriminate).
  destruct Hq as (Q1 & Q2 & Q3 & Q4).
  split; [rewrite slen_app; unfold slen; cbn; lia|]. split.
  - rewrite stake_app_exact. destruct rules_ws_split as (post & ->).
    apply first_rule_split.
    + intros k' r' Hi Hm. pose proof (pre_ws_kinds _ _ Hi) as (K1 & K2 & K3 & K4).
      apply firstn_in in Hi. destruct (rule_cases _ _ _ _ Hi Hm) as [[? ?]|[[? [?|?]]|[[? ?]|[[? ?]|[[? ?]|[? ?]]]]]]; try congruence.
      cbn [sfree]. now rewrite (ws_gapc _ Hc).
    + apply ws_matches. split; [discriminate|]. cbn. now rewrite Hc.
  - intros m k' r' Hm Hi Hmat. rewrite stake_app_ge in Hmat by lia.
    set (y := stake (m - slen (String c run)) rest) in Hmat.
    assert (Hy : exists d y', y = String d y' /\ is_ws d = false).
    { unfold y. rewrite slen_app in Hm. destruct rest as [|d rest]; [unfold slen in *; cbn in *; lia|].
      destruct (m - slen (String c run)) eqn:E; [lia|]. cbn in Hr |- *. eauto. }
    destruct Hy as (d & y' & Ey & Hd). rewrite Ey in Hmat. cbn [append] in Hmat.
    assert (Haw : all_ws (String c (run ++ String d y')) = false).
    { cbn. rewrite all_ws_app. cbn. rewrite Hd. cbn. now rewrite andb_false_r, andb_false_r. }
    destruct (rule_cases _ _ _ _ Hi Hmat) as [[? ?]|[[? [?|?]]|[[? ->]|[[? ->]|[[? [? ->]]|[? E]]]]]]; try congruence.
    + cbn [sfree]. now rewrite (ws_gapc _ Hc).
    + apply ws_matches in Hmat as [_ Hmat]. congruence.
    + apply nl_ws in Hmat. congruence.
    + destruct run; discriminate.
Qed.
Lemma comment_token x rest : no_eol x = true -> (rest = "" \/ starts is_eol rest = true) ->
  token_at (String "#" x ++ rest) (slen (String "#" x)) KComment.
Proof.
  intros Hx Hr.
  split; [rewrite slen_app; unfold slen; cbn; lia|]. split.
  - rewrite stake_app_exact. destruct rules_comment_split as (post & ->).
    apply first_rule_split.
    + intros k' r' Hi Hm. pose proof (pre_comment_kinds _ _ Hi) as (K1 & K2).
      apply firstn_in in Hi. destruct (rule_cases _ _ _ _ Hi Hm) as [[? ?]|[[? [?|?]]|[[? ->]|[[? ->]|[[? ?]|[? ?]]]]]]; try congruence; try discriminate.
      * reflexivity.
      * apply ws_matches in Hm as [_ Hm]. discriminate.
      * apply nl_ws in Hm. discriminate.
    + apply comment_matches. eauto.
  - intros m k' r' Hm Hi Hmat. rewrite stake_app_ge in Hmat by lia.
    set (y := stake (m - slen (String "#" x)) rest) in Hmat.
    assert (Hy : exists d y', y = String d y' /\ is_eol d = true).
    { unfold y. rewrite slen_app in Hm. destruct rest as [|d rest]; [unfold slen in *; cbn in *; lia|].
      destruct (m - slen (String "#" x)) eqn:E; [lia|]. destruct Hr as [Hr|Hr]; [discriminate|]. cbn in Hr |- *. eauto. }
    destruct Hy as (d & y' & Ey & Hd). rewrite Ey in Hmat. cbn [append] in Hmat.
    destruct (rule_cases _ _ _ _ Hi Hmat) as [[? ?]|[[? [?|?]]|[[? ->]|[[? ->]|[[? [? ->]]|[? E]]]]]]; try congruence; try discriminate.
    + reflexivity.
    + apply ws_matches in Hmat as [_ Hmat]. discriminate.
    + apply nl_ws in Hmat. discriminate.
    + apply comment_matches in Hmat as (z & Ez & Hz). injection Ez as <-.
      assert (Hn : no_eol (x ++ String d y') = false).
      { clear -Hd. induction x as [|c x IH]; cbn; [now rewrite Hd|]. rewrite IH. apply andb_false_r. }
      congruence.
    + destruct x; discriminate.
Qed.

(** ** Gaps are hidden *)
Lemma gap_split g : gap g -> exists run g', g = run ++ g' /\ all_ws run = true /\
  (g' = "" \/ exists x c g2, g' = String "#" x ++ String c g2 /\ no_eol x = true /\ is_eol c = true /\ gap (String c g2) /\ slen (String c g2) < slen g).
Proof.
  induction 1 as [|c s Hc Hs (run & g' & -> & Hr & Hg')|x c s Hx Hc Hs _].
  - exists "", "". auto.
  - exists (String c run), g'. split; [reflexivity|]. split; [cbn; now rewrite Hc|].
    destruct Hg' as [->|(x & c' & g2 & -> & H1 & H2 & H3 & H4)]; [now left|right].
    exists x, c', g2. repeat split; auto. revert H4. unfold slen. cbn. lia.
  - exists "", (String "#" (x ++ String c s)). split; [reflexivity|]. split; [reflexivity|]. right.
    exists x, c, s. repeat split; auto.
    + constructor; [|assumption]. unfold is_ws. rewrite Hc. now destruct (Ascii.eqb c " "), (Ascii.eqb c (chr 9)).
    + unfold slen; cbn [String.length]. change (String.length (x ++ String c s)) with (slen (x ++ String c s)).
      rewrite slen_app. unfold slen. cbn. lia.
Qed.
Lemma odd_ws c s : gap_char c = true -> odd_quote (String c s) = false.
Proof.
  intros H. destruct s as [|d s]; [reflexivity|].
  assert (Q : c <> dquote /\ c <> squote /\ c <> backslash) by (repeat split; intros ->; discriminate).
  destruct Q as (Q1 & Q2 & Q3). cbn [odd_quote]. apply Ascii.eqb_neq in Q1, Q2, Q3. now rewrite Q1, Q2, Q3.
Qed.
Lemma gap_hidden n : forall g h s ts, slen g <= n -> gap g -> starts is_ws s = false ->
  lexes (h ++ g) s ts -> lexes h (g ++ s) ts.
Proof.
  induction n as [|n IH]; intros g h s ts Hn Hg Hs Hl.
  { destruct g; [|unfold slen in Hn; cbn in Hn; lia]. rewrite sapp_nil_r in Hl. exact Hl. }
  destruct (gap_split g Hg) as (run & g' & -> & Hr & Hg').
  assert (Step : forall h', lexes (h' ++ g') s ts -> lexes h' (g' ++ s) ts).
  { destruct Hg' as [->|(x & c & g2 & -> & Hx & Hc & Hg2 & Hlen)]; intros h' Hl'.
    - rewrite sapp_nil_r in Hl'. exact Hl'.
    - eapply (lx_hidden h' _ (slen (String "#" x)) KComment).
      + rewrite sapp_assoc. apply odd_ws. reflexivity.
      + rewrite sapp_assoc. apply comment_token; [assumption|]. right. exact Hc.
      + reflexivity.
      + rewrite sapp_assoc, stake_app_exact, sdrop_app_exact.
        apply IH; auto; [|now rewrite !sapp_assoc].
        unfold slen in *. cbn in *. lia. }
  destruct run as [|c run]; [apply Step; exact Hl|].
  rewrite sapp_assoc. eapply (lx_hidden h _ (slen (String c run)) KWs).
  - apply odd_ws. unfold gap_char. cbn in Hr. apply andb_prop in Hr as [Hr _]. now rewrite Hr.
  - apply ws_token; [discriminate|assumption|].
    destruct Hg' as [->|(x & c' & g2 & -> & _)]; [exact Hs|reflexivity].
  - reflexivity.
  - rewrite stake_app_exact, sdrop_app_exact. apply Step. now rewrite sapp_assoc.
Qed.

(** ** Layout *)
Lemma odd_app w g rest : odd_quote w = false -> w <> "" -> (g = "" -> rest = "") -> gap g -> odd_quote (w ++ g ++ rest) = false.
Proof.
  intros Ho Hne Hr Hg. destruct w as [|c [|d w]]; [congruence| |exact Ho].
  destruct g as [|e g].
  - rewrite Hr by reflexivity. exact Ho.
  - destruct (gap_start _ Hg ltac:(discriminate)) as (e' & g' & [= <- <-] & He).
    cbn [append odd_quote]. assert (Q : e <> dquote /\ e <> squote /\ e <> backslash) by (repeat split; intros ->; discriminate).
    destruct Q as (Q1 & Q2 & Q3). apply Ascii.eqb_neq in Q1, Q2, Q3. rewrite Q1, Q2, Q3. cbn [orb andb].
    now rewrite !andb_false_r.
Qed.
Lemma word_start k w rest : word k w -> starts is_ws (w ++ rest) = false.
Proof.
  intros Hw. destruct (word_nonempty _ _ Hw) as (c & w' & ->). destruct Hw as (_ & _ & Hs & _).
  cbn in *. now apply orb_false_iff in Hs.
Qed.
Lemma word_visible k w : word k w -> hidden k = false.
Proof.
  intros Hw. pose proof Hw as ((_ & Hk & _) & _ & Hs & _). rewrite stake_all in Hk.
  destruct (word_nonempty _ _ Hw) as (c & w' & ->). cbn in Hs. apply orb_false_iff in Hs as [Hs1 Hs2].
  apply first_rule_in in Hk as (r & Hi & Hm). destruct k; try reflexivity.
  - the_rule Hi r_ws. apply ws_matches in Hm as [_ Hm]. cbn in Hm. rewrite Hs1 in Hm. discriminate.
  - the_rule Hi r_nl. apply nl_ws in Hm. cbn in Hm. rewrite Hs1 in Hm. discriminate.
  - the_rule Hi r_comment. apply comment_matches in Hm as (x & [= -> _] & _). discriminate.
Qed.
Lemma laid_out_lexes l last : laid_out l -> gap last -> lexes "" (render l last) (map piece_tok l).
Proof.
  intros [Hf Hsep] Hlast. induction Hf as [|p l [Hg Hw] Hf IH]; cbn [render map].
  - rewrite <- (sapp_nil_r last). apply (gap_hidden (slen last)); auto. constructor.
  - assert (Hsep' : separated l) by (destruct l; [exact I|now destruct Hsep as (_ & _ & ?)]).
    specialize (IH Hsep'). destruct p as [g k w]; cbn [pc_gap pc_kind pc_word] in *. unfold piece_tok at 1; cbn [pc_gap pc_kind pc_word].
    apply (gap_hidden (slen g)); auto; [eapply word_start; eassumption|]. cbn [append].
    assert (Hne : w <> "") by (destruct (word_nonempty _ _ Hw) as (c & w' & ->); discriminate).
    pose proof Hw as (Ht & Ho & _).
    assert (Hcase : exists g2 rest, render l last = g2 ++ rest /\ gap g2 /\ (g2 = "" -> rest = "") /\
              (w = ":" -> starts (fun c => is_ws c || Ascii.eqb ">" c) rest = false)).
    { destruct l as [|q l'].
      - exists last, "". cbn. rewrite sapp_nil_r. auto.
      - exists (pc_gap q), (pc_word q ++ render l' last). destruct Hsep as (H1 & H2 & _).
        inversion Hf as [|? ? [Hgq Hwq] _]; subst. repeat split; auto; [congruence|].
        intros Ew. specialize (H2 Ew). destruct (word_nonempty _ _ Hwq) as (c & w' & E).
        destruct Hwq as (_ & _ & Hsq & _). rewrite E in *. cbn in *. apply orb_false_iff in Hsq as [-> _]. exact H2. }
    destruct Hcase as (g2 & rest & E & Hg2 & Hrest & Hcol). rewrite E in *.
    assert (Htok : token_at (w ++ g2 ++ rest) (slen w) k).
    { destruct g2 as [|c g2].
      - rewrite Hrest by reflexivity. cbn [append]. now rewrite sapp_nil_r.
      - apply word_stable; auto. discriminate. }
    replace w with (stake (slen w) (w ++ g2 ++ rest)) at 2 by apply stake_app_exact.
    apply lx_visible; auto.
    + now apply odd_app.
    + eapply word_visible; eassumption.
    + rewrite sdrop_app_exact. exact IH.
Qed.
