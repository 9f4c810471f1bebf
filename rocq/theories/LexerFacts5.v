(** * LexerFacts5: names, numbers, severities, quoted values. *)
From Verif Require Import GoBase GoFacts FalcoModel GrammarModel SpecFalco SpecGrammar LexerModel LexerFacts SpecLexer LexerFacts2 LexerFacts3 LexerFacts4.
From Coq Require Import Lia.
Local Open Scope string_scope.

Lemma first_rule_before pre k0 r0 post w k :
  first_rule (pre ++ (k0, r0) :: post)%list w k -> matches r0 w -> k = k0 \/ In k (map fst pre).
Proof.
  induction pre as [|[k1 r1] pre IH]; cbn [app map fst In]; intros H Hm.
  - inversion H; subst; [now left|contradiction].
  - inversion H; subst; [auto|]. destruct (IH H6 Hm); auto.
Qed.
Lemma rules_id_split : exists post, rules = (firstn 43 rules ++ (KId, r_id) :: post)%list.
Proof. exists (skipn 44 rules). reflexivity. Qed.
Lemma rules_sev_split : exists post, rules = (firstn 42 rules ++ (KSeverity, r_severity) :: post)%list.
Proof. exists (skipn 43 rules). reflexivity. Qed.
Lemma rules_path_split : exists post, rules = (firstn 45 rules ++ (KPath, r_path) :: post)%list.
Proof. exists (skipn 46 rules). reflexivity. Qed.
Lemma rules_string_split : exists post, rules = (firstn 46 rules ++ (KString, r_string) :: post)%list.
Proof. exists (skipn 47 rules). reflexivity. Qed.

(** A rule that has one spelling, or the sign ':' . *)
Lemma pre_sev k r : In (k, r) (firstn 42 rules) -> (exists w, word_of k = Some w /\ r = lit w) \/ (k = KDef /\ r = r_def).
Proof.
  cbn [firstn rules]. intros H.
  repeat (destruct H as [H|H]; [injection H as <- <-; first [left; eexists; split; reflexivity|right; split; reflexivity]|]).
  destruct H.
Qed.
Lemma pre_id k r : In (k, r) (firstn 43 rules) ->
  (exists w, word_of k = Some w /\ r = lit w) \/ (k = KDef /\ r = r_def) \/ (k = KSeverity /\ r = r_severity).
Proof.
  change (firstn 43 rules) with (firstn 42 rules ++ [(KSeverity, r_severity)])%list.
  intros H. apply in_app_or in H as [H|[[= <- <-]|[]]]; [|auto]. apply pre_sev in H. tauto.
Qed.

(** ** Severities *)
Definition all_chars : list ascii := map ascii_of_nat (seq 0 256).
Lemma all_chars_in c : In c all_chars.
Proof.
  rewrite <- (ascii_nat_embedding c). apply in_map. apply in_seq. pose proof (nat_ascii_bounded c). lia.
Qed.
Definition letter_ok (c : ascii) : bool :=
  forallb (fun x => Bool.eqb (Ascii.eqb x c || Ascii.eqb x (upper c)) (Ascii.eqb (lower_byte x) c)) all_chars.
Fixpoint letters_ok (s : string) : bool :=
  match s with EmptyString => true | String c s' => letter_ok c && letters_ok s' end.
Lemma nocase_matches w s : letters_ok w = true -> (matches (nocase w) s <-> to_lower s = w).
Proof.
  revert s; induction w as [|c w IH]; intros s Hw; cbn [nocase letters_ok] in *.
  - rewrite m_eps_inv. destruct s; cbn; split; congruence.
  - apply andb_prop in Hw as [Hc Hw]. rewrite m_seq_inv.
    assert (L : forall x, (Ascii.eqb x c || Ascii.eqb x (upper c)) = true <-> lower_byte x = c).
    { intros x. unfold letter_ok in Hc. rewrite forallb_forall in Hc. specialize (Hc x (all_chars_in x)).
      apply eqb_prop in Hc. rewrite Hc. apply Ascii.eqb_eq. }
    split.
    + intros (u & v & -> & Hu & Hv). apply m_cls_inv in Hu as (x & -> & Hx). apply L in Hx as <-.
      apply IH in Hv; [|assumption]. subst w. reflexivity.
    + destruct s as [|x s]; [discriminate|]. unfold to_lower. cbn [smap]. intros [= Hx Hs].
      exists (String x ""), s. split; [reflexivity|]. split; [constructor; now apply L|now apply IH].
Qed.
Definition sev_words : list string :=
  ["high"; "medium"; "low"; "emergency"; "alert"; "critical"; "error"; "warning"; "notice"; "info"; "informational"; "debug"].
Lemma alts_matches l s : matches (alts l) s <-> exists r, In r l /\ matches r s.
Proof.
  induction l as [|a l IH]; cbn [alts].
  - split; [intros H; now apply m_none in H|intros (r & [] & _)].
  - rewrite m_alt_inv, IH. split.
    + intros [H|(r & Hr & H)]; [exists a|exists r]; cbn; auto.
    + intros (r & [<-|Hr] & H); [now left|right; eauto].
Qed.
Lemma severity_matches s : matches r_severity s <-> severity_word s.
Proof.
  unfold r_severity. rewrite alts_matches. unfold severity_word. fold sev_words.
  assert (Hok : forallb letters_ok sev_words = true) by (vm_compute; reflexivity). rewrite forallb_forall in Hok.
  split.
  - intros (r & Hr & Hm). apply in_map_iff in Hr as (w & <- & Hw). apply nocase_matches in Hm; [|auto]. now rewrite Hm.
  - intros H. exists (nocase (to_lower s)). split; [now apply in_map|]. apply nocase_matches; auto.
Qed.
Lemma lower_idem_kw k w : word_of k = Some w -> to_lower w = w /\ ~ In w sev_words.
Proof.
  destruct k; try discriminate; intros [= <-]; split; try reflexivity; cbn; intros H;
    repeat (destruct H as [H|H]; [discriminate|]); destruct H.
Qed.
Lemma severity_first s : severity_word s <-> first_rule rules s KSeverity.
Proof.
  split.
  - intros H. destruct rules_sev_split as (post & ->). apply first_rule_split; [|now apply severity_matches].
    intros k r Hi Hm. apply pre_sev in Hi as [(w & Hw & ->)|[-> ->]].
    + apply lit_matches in Hm as ->. destruct (lower_idem_kw _ _ Hw) as [E N]. unfold severity_word in H.
      fold sev_words in H. rewrite E in H. contradiction.
    + assert (Hc : exists s', s = String ":" s') by (apply def_form in Hm as [->|(sp & _ & ->)]; eauto).
      destruct Hc as (s' & ->). unfold severity_word in H.
      repeat (destruct H as [H|H]; [discriminate H|]). destruct H.
  - intros H. destruct (first_rule_in _ _ _ H) as (r & Hi & Hm). the_rule Hi r_severity. now apply severity_matches.
Qed.

(** ** Names *)
Lemma star_sall p s : matches (RStar (RCls p)) s <-> sall p s = true.
Proof.
  split.
  - remember (RStar (RCls p)) as r eqn:Er. intros H. revert Er.
    induction H as [| | | | | a|a s t Hs _ Ht IHt]; intros Er; try discriminate; [reflexivity|].
    injection Er as ->. apply m_cls_inv in Hs as (c & -> & Hc). cbn. rewrite Hc. now apply IHt.
  - induction s as [|c s IH]; intros H; [constructor|]. cbn in H. apply andb_prop in H as [Hc H].
    change (String c s) with (String c "" ++ s). constructor; [now constructor|auto].
Qed.
Lemma star_mono_l a b s : matches (RStar a) s -> matches (RStar (RAlt a b)) s.
Proof.
  remember (RStar a) as r eqn:Er. intros H. revert Er.
  induction H as [| | | | | a'|a' s t Hs _ Ht IHt]; intros Er; try discriminate; [constructor|].
  injection Er as ->. constructor; [now apply m_alt_l|auto].
Qed.
Lemma name_matches w : name_like w -> matches r_id w.
Proof.
  destruct w as [|c s]; [intros []|]. intros [Hc Hs]. unfold r_id. apply m_seq_inv. exists (String c ""), s.
  split; [reflexivity|]. split; [now constructor|]. apply star_mono_l. now apply star_sall.
Qed.
Definition id_start (c : ascii) : bool := id_head c.
Lemma def_start s : matches r_def s -> starts id_head s = false.
Proof. intros H. apply def_form in H as [->|(sp & _ & ->)]; reflexivity. Qed.
Lemma whole_token w k : w <> "" -> first_rule rules w k -> token_at w (slen w) k.
Proof.
  intros Hne H. split; [destruct w; [congruence|unfold slen; cbn; lia]|]. split; [now rewrite stake_all|].
  intros m k' r Hm. lia.
Qed.
Lemma name_kind w : name_like w -> (forall k, word_of k <> Some w) -> ~ severity_word w -> first_rule rules w KId.
Proof.
  intros Hn Hk Hs. pose proof (name_matches _ Hn) as Hm. destruct rules_id_split as (post & ->).
  apply first_rule_split; [|assumption].
  intros k r Hi Hm'. apply pre_id in Hi as [(w' & Hw & ->)|[[-> ->]|[-> ->]]].
  - apply lit_matches in Hm' as ->. now apply (Hk k).
  - apply def_start in Hm'. destruct w as [|c w]; [destruct Hn|]. destruct Hn as [Hc _]. cbn in Hm'. congruence.
  - now apply severity_matches in Hm'.
Qed.
Lemma head_chars : forallb (fun c => negb (id_head c) || negb (is_ws c || Ascii.eqb c "#" || Ascii.eqb c dquote || Ascii.eqb c squote || Ascii.eqb c backslash)) all_chars = true.
Proof. vm_compute. reflexivity. Qed.
Lemma phead_chars : forallb (fun c => negb (path_head c) || negb (is_ws c || Ascii.eqb c "#" || Ascii.eqb c dquote || Ascii.eqb c squote || Ascii.eqb c backslash)) all_chars = true.
Proof. vm_compute. reflexivity. Qed.
Lemma plain_word k c s : (is_ws c || Ascii.eqb c "#" || Ascii.eqb c dquote || Ascii.eqb c squote || Ascii.eqb c backslash) = false ->
  first_rule rules (String c s) k -> word k (String c s).
Proof.
  intros Hc H. rewrite !orb_false_iff in Hc. destruct Hc as ((((H1 & H2) & H3) & H4) & H5).
  repeat split.
  - unfold slen; cbn; lia.
  - lia.
  - now rewrite stake_all.
  - intros m k' r Hm. lia.
  - destruct s; [reflexivity|]. cbn [odd_quote]. now rewrite H3, H4, H5.
  - cbn. now rewrite H1, H2.
  - intros [= -> ->]. discriminate.
  - intros [= -> ->]. discriminate.
Qed.
Lemma name_word w : name_like w -> (forall k, word_of k <> Some w) -> ~ severity_word w -> word KId w.
Proof.
  intros Hn Hk Hs. pose proof (name_kind _ Hn Hk Hs) as H. destruct w as [|c s]; [destruct Hn|].
  apply plain_word; [|assumption]. pose proof head_chars as HH. rewrite forallb_forall in HH.
  specialize (HH c (all_chars_in c)). destruct Hn as [Hc _]. rewrite Hc in HH. cbn [negb orb] in HH.
  now apply negb_true_iff in HH.
Qed.
(** ** Paths *)
Lemma path_matches w : path_like w -> matches r_path w.
Proof.
  intros [H _]. destruct w as [|c s]; [destruct H|]. destruct H as [Hc Hs]. unfold r_path. apply m_seq_inv. exists (String c ""), s.
  split; [reflexivity|]. split; [now constructor|]. now apply star_sall.
Qed.
(** No '/' outside an index, that is in a word without '['. *)
Lemma id_no_slash w : matches r_id w -> sfree ["["%char] w = true -> sfree ["/"%char] w = true.
Proof.
  unfold r_id. rewrite m_seq_inv. intros (u & v & -> & Hu & Hv). rewrite !sfree_app. intros H. apply andb_prop in H as [_ H].
  apply m_cls_inv in Hu as (c & -> & Hc). apply andb_true_intro. split.
  - apply (avoids_free _ (RCls id_head)); [now constructor|reflexivity].
  - clear c Hc. revert H. remember (RStar (RAlt (RCls id_tail) r_index)) as r eqn:Er. revert Er.
    induction Hv as [| | | | | a|a s t Hs _ Ht IHt]; intros Er HF; try discriminate; [reflexivity|].
    injection Er as ->. rewrite !sfree_app in *. apply andb_prop in HF as [H1 H2]. rewrite (IHt eq_refl H2), andb_true_r.
    apply m_alt_inv in Hs as [Hs|Hs].
    + apply (avoids_free _ (RCls id_tail)); [assumption|reflexivity].
    + exfalso. unfold r_index in Hs. apply m_seq_inv in Hs as (x & y & -> & _ & Hy).
      apply m_seq_inv in Hy as (x' & y' & -> & Hx & _). apply m_cls_inv in Hx as (c & -> & Hc).
      apply Ascii.eqb_eq in Hc as <-. rewrite !sfree_app in H1. cbn in H1. now rewrite andb_false_r in H1.
Qed.
Lemma sall_free p bad s : sall p s = true -> forallb (fun c => negb (p c)) bad = true -> sfree bad s = true.
Proof. intros H Hb. apply (avoids_free bad (RStar (RCls p))); [now apply star_sall|exact Hb]. Qed.
Lemma path_free w : path_like w -> sfree ["["%char] w = true.
Proof. intros H. apply (avoids_free _ r_path); [now apply path_matches|reflexivity]. Qed.
Lemma not_id w : path_like w -> ~ matches r_id w.
Proof.
  intros H Hm. pose proof (id_no_slash _ Hm (path_free _ H)) as Hf.
  destruct H as [_ [H|[H|(a & b & ->)]]].
  - destruct w as [|c w]; [discriminate|]. cbn [starts] in H. apply Ascii.eqb_eq in H as <-. discriminate.
  - destruct w as [|c w]; [discriminate|]. cbn [starts] in H. apply Ascii.eqb_eq in H as <-.
    apply first_char in Hm as (c & s & [= <- <-] & Hc). discriminate.
  - rewrite !sfree_app in Hf. cbn in Hf. now rewrite andb_false_r in Hf.
Qed.
Lemma number_id w : matches r_number w -> matches r_id w.
Proof.
  intros H. apply name_matches. unfold r_number, plus in H.
  apply m_seq_inv in H as (u & v & -> & Hu & Hv).
  apply m_seq_inv in Hu as (d & ds & -> & Hd & Hds). apply m_cls_inv in Hd as (c & -> & Hc). apply star_sall in Hds.
  assert (DT : forall x, digit x = true -> id_tail x = true /\ id_head x = true).
  { intros x Hx. unfold id_tail, id_head, alnum. unfold digit in Hx. rewrite Hx. rewrite !orb_true_r. auto. }
  assert (SA : forall p q x, (forall y, p y = true -> q y = true) -> sall p x = true -> sall q x = true).
  { intros p q x Hpq. induction x as [|y x IH]; [auto|]. cbn. intros Hx. apply andb_prop in Hx as [H1 H2]. now rewrite (Hpq _ H1), IH. }
  assert (AP : forall p x y, sall p (x ++ y) = sall p x && sall p y).
  { intros p x y. induction x as [|z x IH]; [reflexivity|]. cbn. now rewrite IH, andb_assoc. }
  cbn. split; [now apply DT|]. rewrite AP, (SA digit id_tail ds); [|intros y Hy; now apply DT|assumption]. cbn [andb].
  apply m_alt_inv in Hv as [Hv|Hv]; [|apply m_eps_inv in Hv as ->; reflexivity].
  apply m_seq_inv in Hv as (x & y & -> & Hx & Hy). apply m_cls_inv in Hx as (c' & -> & Hc'). apply Ascii.eqb_eq in Hc' as <-.
  apply m_seq_inv in Hy as (x' & y' & -> & Hx' & Hy'). apply m_cls_inv in Hx' as (c2 & -> & Hc2). apply star_sall in Hy'.
  cbn. rewrite (proj1 (DT _ Hc2)). cbn. apply (SA digit id_tail); [intros y Hy; now apply DT|assumption].
Qed.
Lemma number_never w : ~ first_rule rules w KNumber.
Proof.
  intros H. destruct (first_rule_in _ _ _ H) as (r & Hi & Hm). the_rule Hi r_number. apply number_id in Hm.
  destruct rules_id_split as (post & E). rewrite E in H. destruct (first_rule_before _ _ _ _ _ _ H Hm) as [K|K]; [discriminate|].
  cbn in K. repeat (destruct K as [K|K]; [discriminate|]). destruct K.
Qed.
Lemma path_kind w : path_like w -> first_rule rules w KPath.
Proof.
  intros H. pose proof (path_matches _ H) as Hm. destruct rules_path_split as (post & ->).
  apply first_rule_split; [|assumption]. intros k r Hi Hm'.
  change (firstn 45 rules) with (firstn 43 rules ++ [(KId, r_id); (KNumber, r_number)])%list in Hi.
  apply in_app_or in Hi as [Hi|[[= <- <-]|[[= <- <-]|[]]]].
  - assert (Hslash : sfree ["/"%char] w = false \/ starts (Ascii.eqb ".") w = true).
    { destruct H as [_ [H|[H|(a & b & ->)]]].
      - left. destruct w as [|c w]; [discriminate|]. cbn [starts] in H. apply Ascii.eqb_eq in H as <-. reflexivity.
      - now right.
      - left. rewrite !sfree_app. cbn. apply andb_false_r. }
    apply pre_id in Hi as [(w' & Hw & ->)|[[-> ->]|[-> ->]]].
    + apply lit_matches in Hm' as ->. destruct k; try discriminate Hw; injection Hw as <-; destruct Hslash; discriminate.
    + apply def_form in Hm' as [->|(sp & Hsp & ->)]; destruct H as [[H _] _]; discriminate.
    + apply severity_matches in Hm'. destruct Hslash as [Hs|Hs].
      * apply severity_matches in Hm'. rewrite (avoids_free ["/"%char] r_severity) in Hs; [discriminate|assumption|reflexivity].
      * destruct w as [|c w]; [discriminate|]. cbn [starts] in Hs. apply Ascii.eqb_eq in Hs as <-.
        unfold severity_word in Hm'. repeat (destruct Hm' as [Hm'|Hm']; [discriminate Hm'|]). destruct Hm'.
  - now apply not_id in Hm'.
  - apply number_id in Hm'. now apply not_id in Hm'.
Qed.
Lemma path_word w : path_like w -> word KPath w.
Proof.
  intros H. pose proof (path_kind _ H) as Hk. destruct H as [H _]. destruct w as [|c s]; [destruct H|].
  apply plain_word; [|assumption]. pose proof phead_chars as HH. rewrite forallb_forall in HH.
  specialize (HH c (all_chars_in c)). destruct H as [Hc _]. rewrite Hc in HH. cbn [negb orb] in HH.
  now apply negb_true_iff in HH.
Qed.
(** ** Quoted values *)
Lemma quoted_matches q body : quotable q body -> matches r_string (String q (body ++ String q "")).
Proof.
  intros (Hq & Hf & Hb). assert (H : matches (r_quoted q) (String q (body ++ String q ""))).
  { destruct body as [|f body]; [discriminate|]. cbn in Hf, Hb. apply andb_prop in Hb as [_ Hb].
    unfold r_quoted. apply m_seq_inv. exists (String q ""), (String f body ++ String q ""). split; [reflexivity|].
    split; [constructor; apply Ascii.eqb_refl|]. apply m_seq_inv. exists (String f ""), (body ++ String q "").
    split; [reflexivity|]. split; [now constructor|]. apply m_seq_inv. exists body, (String q ""). split; [reflexivity|].
    split; [now apply star_sall|constructor; apply Ascii.eqb_refl]. }
  apply m_alt_inv. destruct Hq as [-> | ->]; auto.
Qed.
Lemma quoted_kind q body : quotable q body -> first_rule rules (String q (body ++ String q "")) KString.
Proof.
  intros H. pose proof (quoted_matches _ _ H) as Hm. destruct H as (Hq & Hf & Hb).
  destruct rules_string_split as (post & ->). apply first_rule_split; [|assumption].
  intros k r Hi Hm'. pose proof rules_noquote as Hnq. rewrite forallb_forall in Hnq.
  assert (Hk : k <> KString /\ k <> KComment /\ k <> KAny).
  { clear -Hi. cbn [firstn rules] in Hi. repeat (destruct Hi as [Hi|Hi]; [injection Hi as <- _; repeat split; discriminate|]). destruct Hi. }
  apply firstn_in in Hi. specialize (Hnq _ Hi). cbn [fst snd] in Hnq.
  assert (Ha : avoids quotec r = true) by (destruct k; try exact Hnq; exfalso; tauto).
  apply (avoids_free _ _ _ Hm') in Ha. destruct Hq as [-> | ->]; discriminate.
Qed.
Lemma quoted_word q body : quotable q body -> word KString (String q (body ++ String q "")).
Proof.
  intros H. pose proof (quoted_kind _ _ H) as Hk. destruct H as (Hq & Hf & Hb).
  destruct body as [|f body]; [discriminate|]. split; [apply whole_token; [discriminate|assumption]|].
  cbn [starts] in Hf. unfold plain_first in Hf. rewrite !andb_true_iff, !negb_true_iff in Hf. destruct Hf as (((F1 & F2) & F3) & F4).
  repeat split.
  - cbn [append odd_quote]. rewrite F1, F2, F3. cbn [orb]. rewrite andb_false_r. destruct Hq as [-> | ->]; reflexivity.
  - destruct Hq as [-> | ->]; reflexivity.
  - discriminate.
  - discriminate.
Qed.
Lemma quoted_trim q body : q = dquote \/ q = squote -> trim_bounding_quotes (String q (body ++ String q "")) = body.
Proof. intros [-> | ->]; now apply trim_bounding_quotes_quoted. Qed.
