(** * LexerFacts2: words, gaps, spelling. *)
From Verif Require Import GoBase GoFacts FalcoModel GrammarModel SpecFalco SpecGrammar LexerModel LexerFacts SpecLexer.
From Coq Require Import Lia.
Local Open Scope string_scope.

(** ** Strings *)
Lemma stake_app_le n a b : n <= slen a -> stake n (a ++ b) = stake n a.
Proof.
  revert a; induction n as [|n IH]; intros a H; [reflexivity|]. destruct a as [|c a]; [unfold slen in *; cbn in H; lia|].
  cbn [stake append]. rewrite IH; [reflexivity|unfold slen in *; cbn in H; lia].
Qed.
Lemma stake_all a : stake (slen a) a = a.
Proof. unfold slen. induction a as [|c a IH]; [reflexivity|]. cbn. now rewrite IH. Qed.
Lemma stake_app_exact a b : stake (slen a) (a ++ b) = a.
Proof. rewrite stake_app_le by lia. apply stake_all. Qed.
Lemma sdrop_app_exact a b : sdrop (slen a) (a ++ b) = b.
Proof. induction a as [|c a IH]; [reflexivity|]. exact IH. Qed.
Lemma stake_app_ge n a b : slen a <= n -> stake n (a ++ b) = a ++ stake (n - slen a) b.
Proof.
  unfold slen in *; revert n; induction a as [|c a IH]; intros n H; cbn [append String.length] in *; [now rewrite Nat.sub_0_r|].
  destruct n as [|n]; [unfold slen in *; cbn in H; lia|]. cbn. rewrite IH; [reflexivity|unfold slen in *; cbn in H; lia].
Qed.

(** ** The source is recovered *)
Lemma lexes_source h s ts : lexes h s ts -> exists last, h ++ s = source ts ++ last.
Proof.
  unfold source.
  induction 1 as [h|h s n k ts Eo Ht Eh Hl [last IH]|h s n k ts Eo Ht Eh Hl [last IH]].
  - exists h. cbn. apply sapp_nil_r.
  - exists last. rewrite <- IH, sapp_assoc. now rewrite stake_sdrop.
  - exists last. cbn [source_tail fold_right hid tx]. change (fold_right _ "" ts) with (source_tail ts).
    rewrite !sapp_assoc, <- IH. cbn [append]. now rewrite stake_sdrop.
Qed.
Lemma source_tail_app a b : source_tail (a ++ b) = source_tail a ++ source_tail b.
Proof. induction a as [|t a IH]; [reflexivity|]. cbn [source_tail fold_right app] in *. unfold source_tail in IH. rewrite IH. now rewrite !sapp_assoc. Qed.
Lemma source_text_inside us a b : us <> [] -> inside (source_text us) (source_tail (a ++ us ++ b)).
Proof.
  intros Hne. destruct us as [|t us]; [congruence|]. exists (source_tail a ++ hid t), (source_tail b).
  rewrite !source_tail_app. cbn [source_text]. change (source_tail (t :: us)) with (hid t ++ tx t ++ source_tail us).
  now rewrite !sapp_assoc.
Qed.
Lemma inside_app x a b : inside x a -> inside x (a ++ b).
Proof. intros (u & v & ->). exists u, (v ++ b). now rewrite !sapp_assoc. Qed.

(** ** Tokens and their kinds *)
Lemma lexes_tokens h s ts : lexes h s ts -> Forall (fun t => first_rule rules (tx t) (tk t) /\ hidden (tk t) = false /\ tx t <> "") ts.
Proof.
  induction 1 as [h|h s n k ts Eo Ht Eh Hl IH|h s n k ts Eo Ht Eh Hl IH]; [constructor|assumption|].
  constructor; [|assumption]. destruct Ht as (Hn & Hk & _). cbn. repeat split; auto.
  destruct n as [|n]; [lia|]. destruct s; [unfold slen in *; cbn in Hn; lia|discriminate].
Qed.
Lemma lit_matches w s : matches (lit w) s <-> s = w.
Proof.
  revert s; induction w as [|c w IH]; intros s; cbn [lit]; [apply m_eps_inv|].
  rewrite m_seq_inv. split.
  - intros (u & v & -> & Hu & Hv). apply m_cls_inv in Hu as (c' & -> & Hc). apply Ascii.eqb_eq in Hc as <-.
    apply IH in Hv as ->. reflexivity.
  - intros ->. exists (String c ""), w. split; [reflexivity|]. split; [|now apply IH].
    apply m_cls_inv. exists c. split; [reflexivity|]. apply Ascii.eqb_refl.
Qed.
Lemma rule_unique k r r' : In (k, r) rules -> In (k, r') rules -> r = r'.
Proof.
  unfold rules; intros H H'.
  repeat (destruct H as [H|H]; [injection H as <- <-; repeat (destruct H' as [H'|H']; [first [discriminate H'|now injection H' as <-]|]); destruct H'|]).
  destruct H.
Qed.
Lemma word_of_rule k w : word_of k = Some w -> In (k, lit w) rules.
Proof. destruct k; try discriminate; intros [= <-]; unfold rules; repeat (first [left; reflexivity|right]). Qed.
Lemma first_rule_spelled w k : first_rule rules w k -> forall k' w', word_of k' = Some w' -> (k = k' <-> w = w').
Proof.
  intros H k' w' Hw. split.
  - intros <-. destruct (first_rule_in _ _ _ H) as (r & Hi & Hm).
    rewrite (rule_unique _ _ _ Hi (word_of_rule _ _ Hw)) in Hm. now apply lit_matches.
  - intros ->. apply classify_spec in H. revert H. destruct k'; try discriminate Hw; injection Hw as <-; vm_compute; congruence.
Qed.
Lemma lexes_spelled h s ts : lexes h s ts -> Forall spelled ts.
Proof.
  intros H. apply lexes_tokens in H. eapply Forall_impl; [|exact H]. intros t (Ht & _) k w Hw.
  now apply first_rule_spelled.
Qed.
(** Totality. *)
Lemma sdrop_sdrop n m s : sdrop n (sdrop m s) = sdrop (m + n) s.
Proof. revert s; induction m as [|m IH]; intros [|c s]; cbn; auto. destruct n; reflexivity. Qed.
Lemma lexes_total : forall n s h, slen s <= n -> (forall m, odd_quote (sdrop m s) = false) -> exists ts, lexes h s ts.
Proof.
  induction n as [|n IH]; intros s h Hn Hq.
  - destruct s; [|unfold slen in *; cbn in Hn; lia]. exists []. constructor.
  - destruct s as [|c s]; [exists []; constructor|].
    destruct (token_at_total c s) as (m & k & Ht). pose proof Ht as [Hm _].
    assert (Hl : slen (sdrop m (String c s)) <= n) by (rewrite slen_sdrop; unfold slen in *; cbn [String.length] in *; destruct Hm as [Hm1 Hm2]; lia).
    assert (Hq' : forall j, odd_quote (sdrop j (sdrop m (String c s))) = false) by (intros j; rewrite sdrop_sdrop; apply Hq).
    destruct (hidden k) eqn:Eh.
    + destruct (IH _ (h ++ stake m (String c s)) Hl Hq') as (ts & H). exists ts.
      eapply lx_hidden; eauto. apply (Hq 0).
    + destruct (IH _ "" Hl Hq') as (ts & H). eexists. eapply lx_visible; eauto. apply (Hq 0).
Qed.
